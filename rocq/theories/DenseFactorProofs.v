(** Proofs about SVD, QR and Invert. *)

From Coq Require Import ZArith List Bool Lia Permutation.
From Verif Require Import Base Scalar Spec Dense LoopFacts SumFacts DenseFacts Eigen EigenSpec EigenProofs DenseFactor DenseFactorSpec.
Import ListNotations.
Open Scope Z_scope.

Section DenseFactor.
Context {S : scalar}.
Notation T := (car S).
Implicit Types (D : dense S) (L : flapack S).

Lemma vec_ok' {A} n (a : A) : 0 <= n -> vec n a = Ok (repeat a (Z.to_nat n)).
Proof. intros H. unfold vec. destruct (Z.ltb_spec n 0); [lia|reflexivity]. Qed.

Lemma zlen_rep {A} n (a : A) : 0 <= n -> zlen (repeat a (Z.to_nat n)) = n.
Proof. intros H. rewrite zlen_repeat. lia. Qed.

Lemma svd_run L D :
  shape D -> workspace L (d_rows D) (d_cols D) ->
  svd L D =
    if fl_svd_info L (d_rows D) (d_cols D) (d_data D) =? 0
    then Ok (Dense (d_rows D) (d_cols D) (out_svd_a L (d_rows D) (d_cols D) (d_data D)), out_svd_s L (d_rows D) (d_cols D) (d_data D))
    else Fail FAssert.
Proof.
  intros ((_ & _ & Hl) & Hr & Hc) (Hw & _). unfold svd.
  set (m := d_rows D) in *. set (n := d_cols D) in *.
  assert (0 < svd_least m n) by (unfold svd_least; lia).
  rewrite vec_ok' by lia. cbn [bind].
  destruct (Z.eqb_spec m 0); [lia|]. destruct (Z.eqb_spec n 0); [lia|]. cbn [orb].
  rewrite vec_ok' by lia. cbn [bind].
  destruct (Z.ltb_spec (fl_svd_work L m n) (svd_least m n)); [lia|].
  rewrite reads_all by exact Hl. cbn [bind]. rewrite scratch_ok by (rewrite zlen_rep by lia; lia). cbn [bind].
  rewrite writes_all by exact Hl. cbn [bind]. rewrite writes_all by (apply zlen_rep; lia). cbn [bind].
  unfold assert_. destruct (_ =? 0); reflexivity.
Qed.

Lemma qr_run L D :
  shape D -> d_cols D <= d_rows D -> workspace L (d_rows D) (d_cols D) ->
  qr L D = Ok (Dense (d_rows D) (d_cols D)
    (out_gqr L (d_rows D) (d_cols D) (out_qp3_a L (d_rows D) (d_cols D) (d_data D)) (out_qp3_tau L (d_rows D) (d_cols D) (d_data D)))).
Proof.
  intros ((_ & _ & Hl) & Hr & Hc) Hs (_ & Hw & Hg & _). unfold qr.
  set (m := d_rows D) in *. set (n := d_cols D) in *.
  destruct (Z.eqb_spec m 0); [lia|]. destruct (Z.eqb_spec n 0); [lia|]. cbn [orb].
  replace (Z.min m n) with n in * by lia. unfold qp3_least in *.
  rewrite !vec_ok' by lia. cbn [bind].
  destruct (Z.ltb_spec (fl_qp3_work L m n) (3 * n + 1)); [lia|].
  rewrite reads_all by exact Hl. cbn [bind]. rewrite reads_all by (apply zlen_rep; lia). cbn [bind].
  rewrite scratch_ok by (rewrite zlen_rep by lia; lia). cbn [bind].
  rewrite writes_all by exact Hl. cbn [bind]. rewrite !writes_all by (apply zlen_rep; lia). cbn [bind].
  destruct (Z.ltb_spec (fl_gqr_work L m n n) 0); [lia|]. cbn [bind].
  destruct (Z.ltb_spec m n); [lia|]. destruct (Z.ltb_spec (fl_gqr_work L m n n) n); [lia|]. cbn [orb].
  assert (0 <= m * n) by nia.
  rewrite reads_all by (rewrite zlen_map_zrange; lia). cbn [bind].
  rewrite reads_all by (rewrite zlen_map_zrange; lia). cbn [bind].
  rewrite scratch_ok by (rewrite zlen_resize; lia). cbn [bind].
  rewrite writes_all by (rewrite zlen_map_zrange; lia). reflexivity.
Qed.

Lemma qr_wide L D :
  shape D -> d_rows D < d_cols D -> workspace L (d_rows D) (d_cols D) -> qr L D = Fail FUB.
Proof.
  intros ((_ & _ & Hl) & Hr & Hc) Hs (_ & Hw & Hg & _). unfold qr.
  set (m := d_rows D) in *. set (n := d_cols D) in *.
  destruct (Z.eqb_spec m 0); [lia|]. destruct (Z.eqb_spec n 0); [lia|]. cbn [orb].
  unfold qp3_least in *. replace (Z.min m n) with m by lia.
  rewrite !vec_ok' by lia. cbn [bind].
  destruct (Z.ltb_spec (fl_qp3_work L m n) (3 * n + 1)); [lia|].
  rewrite reads_all by exact Hl. cbn [bind]. unfold reads at 1. rewrite zlen_rep by lia.
  destruct (Z.leb_spec n m); [lia|reflexivity].
Qed.

Lemma invert_run L D :
  shape D -> d_cols D = d_rows D -> workspace L (d_rows D) (d_cols D) ->
  let n := d_rows D in let f := out_trf_a L n (d_data D) in let p := out_trf_p L n (d_data D) in
  invert L D = if fl_tri_info L n f p =? 0 then Ok (Dense n n (out_tri_a L n f p)) else Fail FAssert.
Proof.
  intros ((_ & _ & Hl) & Hr & Hc) E (_ & _ & _ & Hw) n f p. unfold invert. rewrite E in *. fold n in Hl, Hr, Hw |- *.
  rewrite Z.eqb_refl. cbn [assert_ bind]. destruct (Z.eqb_spec n 0); [lia|]. cbn [orb].
  replace (Z.min n n) with n by lia.
  rewrite vec_ok' by lia. cbn [bind]. rewrite reads_all by exact Hl. cbn [bind].
  rewrite writes_all by exact Hl. cbn [bind]. rewrite writes_all by (apply zlen_rep; lia). cbn [bind].
  rewrite vec_ok' by lia. cbn [bind]. destruct (Z.ltb_spec (fl_tri_work L n) n); [lia|].
  assert (0 <= n * n) by nia.
  rewrite reads_all by (rewrite zlen_map_zrange; lia). cbn [bind].
  rewrite reads_all by (rewrite zlen_map_zrange; lia). cbn [bind].
  rewrite scratch_ok by (rewrite zlen_rep by lia; lia). cbn [bind].
  rewrite writes_all by (rewrite zlen_map_zrange; lia). cbn [bind].
  fold (out_trf_a L n (d_data D)). fold (out_trf_p L n (d_data D)). fold f p.
  unfold assert_. destruct (_ =? 0); reflexivity.
Qed.

(* ---------------------------------------------------------------- properties *)

Lemma svd_value L D U s :
  shape D -> workspace L (d_rows D) (d_cols D) -> svd_correct L (d_rows D) (d_cols D) (d_data D) ->
  svd L D = Ok (U, s) ->
  dense_ok U /\ d_rows U = d_rows D /\ d_cols U = d_cols D /\ zlen s = Z.min (d_rows D) (d_cols D) /\
  exists V, singular (d_rows D) (d_cols D) (dense_mat D) (dense_mat U) V s.
Proof.
  intros Hs Hw Hc. rewrite svd_run by assumption.
  destruct (Z.eqb_spec (fl_svd_info L (d_rows D) (d_cols D) (d_data D)) 0) as [E|]; [|discriminate].
  intros [= <- <-]. destruct Hs as ((? & ? & Hl) & ? & ?).
  split; [|split; [reflexivity|split; [reflexivity|split]]].
  - unfold dense_ok; cbn [d_rows d_cols d_data]. split; [lia|]. split; [lia|]. unfold out_svd_a. rewrite zlen_map_zrange; [lia|nia].
  - unfold out_svd_s. rewrite zlen_map_zrange; lia.
  - exact (Hc E).
Qed.

Lemma svd_outcome L D :
  shape D -> workspace L (d_rows D) (d_cols D) ->
  (fl_svd_info L (d_rows D) (d_cols D) (d_data D) = 0 -> exists r, svd L D = Ok r) /\
  (fl_svd_info L (d_rows D) (d_cols D) (d_data D) <> 0 -> svd L D = Fail FAssert).
Proof.
  intros Hs Hw. rewrite svd_run by assumption. split; intros H.
  - rewrite H. eexists. reflexivity.
  - destruct (Z.eqb_spec (fl_svd_info L (d_rows D) (d_cols D) (d_data D)) 0); [contradiction|reflexivity].
Qed.

Lemma mul_zero (R : ring_laws S) (a : T) : smul a s0 = s0.
Proof.
  rewrite (Rmul_comm R). transitivity (sadd (sadd (smul s0 a) (smul s0 a)) (sopp (smul s0 a))).
  - rewrite <- (Radd_assoc R), (Ropp_def R), (Radd_comm R). symmetry. apply (Radd_0_l R).
  - rewrite <- (Rdistr_l R), (Radd_0_l R). apply (Ropp_def R).
Qed.

Lemma sum_zero_tail (R : ring_laws S) a b (f : Z -> T) :
  0 <= a <= b -> (forall l, a <= l < b -> f l = s0) -> sum_range 0 b f = sum_range 0 a f.
Proof.
  intros H Hf. rewrite (sum_range_split R 0 a b) by lia. rewrite (sum_range_0 R a b) by exact Hf.
  rewrite (Radd_comm R). apply (Radd_0_l R).
Qed.

Lemma qr_value (R : ring_laws S) L D Q :
  shape D -> d_cols D <= d_rows D -> workspace L (d_rows D) (d_cols D) -> qr_correct L (d_rows D) (d_cols D) (d_data D) ->
  qr L D = Ok Q ->
  dense_ok Q /\ d_rows Q = d_rows D /\ d_cols Q = d_cols D /\
  orthonormal (d_rows D) (d_cols D) (dense_mat Q) /\
  exists p Rf, factored (d_rows D) (d_cols D) (dense_mat D) (dense_mat Q) p Rf.
Proof.
  intros Hs Hle Hw (Qf & Rf & Ho & Hp & Hz & Ha & Hq). rewrite qr_run by assumption. intros [= <-].
  set (m := d_rows D) in *. set (n := d_cols D) in *. destruct Hs as ((? & ? & Hl) & ? & ?).
  set (out := out_gqr _ _ _ _ _) in *.
  assert (Lo : zlen out = m * n) by (unfold out, out_gqr; rewrite zlen_map_zrange; nia).
  split; [|split; [reflexivity|split; [reflexivity|split]]].
  - unfold dense_ok; cbn [d_rows d_cols d_data]. lia.
  - intros j k Hj Hk. rewrite <- (Ho j k) by lia. apply sum_range_ext. intros i Hi. cbn beta.
    change (dense_mat (Dense m n out)) with (colmajor m out). now rewrite !(Hq i) by lia.
  - exists (map (fun c => c - 1) (out_qp3_p L m n (d_data D))), Rf.
    split; [exact Hp|]. split; [exact Hz|]. intros i j Hi Hj.
    rewrite (zn_map 0 0) by (unfold out_qp3_p; rewrite zlen_map_zrange; lia).
    change (dense_mat D) with (colmajor m (d_data D)). rewrite Ha by lia.
    rewrite (sum_zero_tail R n m).
    + apply sum_range_ext. intros l Hl'. change (dense_mat (Dense m n out)) with (colmajor m out). now rewrite (Hq i) by lia.
    + lia.
    + intros l Hl'. rewrite Hz by lia. apply (mul_zero R).
Qed.

Lemma mat_mul_same n (A A' B : mat S) : same n n A A' -> same n n (mat_mul A B n) (mat_mul A' B n) /\ same n n (mat_mul B A n) (mat_mul B A' n).
Proof.
  intros H. split; intros i j Hi Hj; apply sum_range_ext; intros k Hk; cbn beta; now rewrite H by lia.
Qed.

Lemma inverse_same n (A A' X : mat S) : same n n A A' -> inverse n A X -> inverse n A' X.
Proof.
  intros H [H1 H2]. destruct (mat_mul_same n A A' X H) as [E1 E2].
  split; intros i j Hi Hj; [rewrite <- E2 by lia; now apply H1|rewrite <- E1 by lia; now apply H2].
Qed.

Lemma invert_value L D E :
  shape D -> d_cols D = d_rows D -> workspace L (d_rows D) (d_cols D) -> lu_correct L (d_rows D) (d_data D) ->
  invert L D = Ok E ->
  dense_ok E /\ d_rows E = d_rows D /\ d_cols E = d_cols D /\ inverse (d_rows D) (dense_mat D) (dense_mat E).
Proof.
  intros Hs He Hw (lu & Hf & Hi & _). rewrite invert_run by assumption.
  destruct (Z.eqb_spec (fl_tri_info L (d_rows D) (out_trf_a L (d_rows D) (d_data D)) (out_trf_p L (d_rows D) (d_data D))) 0) as [E0|]; [|discriminate].
  intros [= <-]. destruct Hs as ((? & ? & Hl) & ? & ?).
  split; [|split; [reflexivity|split; [now cbn|]]].
  - unfold dense_ok; cbn [d_rows d_cols d_data]. split; [lia|]. split; [lia|]. unfold out_tri_a. rewrite zlen_map_zrange; [lia|nia].
  - eapply inverse_same; [exact Hf|]. exact (Hi E0).
Qed.

Lemma invert_outcome L D :
  shape D -> d_cols D = d_rows D -> workspace L (d_rows D) (d_cols D) -> lu_correct L (d_rows D) (d_data D) ->
  ((exists X, inverse (d_rows D) (dense_mat D) X) -> exists E, invert L D = Ok E) /\
  (~ (exists X, inverse (d_rows D) (dense_mat D) X) -> invert L D = Fail FAssert).
Proof.
  intros Hs He Hw (lu & Hf & Hi & Hx). rewrite invert_run by assumption.
  set (info := fl_tri_info _ _ _ _) in *. split; intros H.
  - assert (E : info = 0).
    { apply Hx. destruct H as [X HX]. exists X. eapply inverse_same; [|exact HX]. intros i j Hi' Hj'. symmetry. now apply Hf. }
    rewrite E. eexists. reflexivity.
  - destruct (Z.eqb_spec info 0) as [E|]; [|reflexivity]. exfalso. apply H. eexists. eapply inverse_same; [exact Hf|]. exact (Hi E).
Qed.

Lemma invert_not_square L D : d_rows D <> d_cols D -> invert L D = Fail FAssert.
Proof. intros H. unfold invert. destruct (Z.eqb_spec (d_rows D) (d_cols D)); [contradiction|reflexivity]. Qed.

Lemma factor_empty L D :
  dense_ok D -> d_rows D = 0 \/ d_cols D = 0 ->
  svd L D = Ok (D, []) /\ qr L D = Ok D /\ (d_rows D = d_cols D -> invert L D = Ok D).
Proof.
  intros (? & ? & _) Hz.
  assert (E : (d_rows D =? 0) || (d_cols D =? 0) = true) by (apply orb_true_iff; rewrite !Z.eqb_eq; tauto).
  assert (M : Z.min (d_rows D) (d_cols D) = 0) by lia.
  unfold svd, qr, invert. rewrite E, M. split; [reflexivity|]. split; [reflexivity|]. intros ->. now rewrite Z.eqb_refl.
Qed.

End DenseFactor.
