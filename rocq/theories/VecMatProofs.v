(** Proofs about products whose input and output are views. *)

From Coq Require Import ZArith List Bool Lia.
From Verif Require Import Base Scalar Spec LoopFacts HistoryProofs Dense Sparse CsrFacts SparseProofs SumFacts DenseFacts DenseProofs Coo Lil Block Vec VecSpec VecProofs VecMat VecMatSpec LifeProofs I32Proofs.
Import ListNotations.
Open Scope Z_scope.

(** ** One run follows another *)

Definition follows {A B} (R : A -> B -> Prop) (f : res A) (g : res B) : Prop := forall a, f = Ok a -> exists b, g = Ok b /\ R a b.

Lemma follows_bind {A B C D} (R : A -> B -> Prop) (Q : C -> D -> Prop) f g k l :
  follows R f g -> (forall a b, R a b -> follows Q (k a) (l b)) -> follows Q (bind f k) (bind g l).
Proof. intros F K c H. apply bind_Ok in H. destruct H as (a & Ea & H). destruct (F a Ea) as (b & -> & Hab). cbn [bind]. exact (K a b Hab c H). Qed.

Lemma follows_same {A C D} (Q : C -> D -> Prop) (f : res A) k l : (forall a, f = Ok a -> follows Q (k a) (l a)) -> follows Q (bind f k) (bind f l).
Proof. intros K c H. apply bind_Ok in H. destruct H as (a & Ea & H). rewrite Ea. cbn [bind]. exact (K a Ea c H). Qed.

Lemma follows_ret {A B} (R : A -> B -> Prop) a b : R a b -> follows R (Ok a) (Ok b).
Proof. intros H a' [= <-]. now exists b. Qed.

Lemma follows_fold {A B X} (R : A -> B -> Prop) (f : A -> X -> res A) (g : B -> X -> res B) l : (forall x a b, R a b -> follows R (f a x) (g b x)) ->
  forall a b, R a b -> follows R (foldM f l a) (foldM g l b).
Proof.
  intros H. induction l as [|x l IH]; intros a b Hab; cbn [foldM]; [now apply follows_ret|].
  apply (follows_bind R); [now apply H|exact IH].
Qed.

Lemma follows_for {A B} (R : A -> B -> Prop) lo hi (f : Z -> A -> res A) (g : Z -> B -> res B) a b :
  (forall i a b, R a b -> follows R (f i a) (g i b)) -> R a b -> follows R (for_ lo hi a f) (for_ lo hi b g).
Proof. intros H Hab. unfold for_. apply follows_fold; [|exact Hab]. intros i a' b' H'. now apply H. Qed.

Lemma follows_eq {A} (f : res A) : follows eq f f.
Proof. intros a H. now exists a. Qed.

Section VecMatProofs.
Context {S : scalar}.
Notation T := (car S).
Notation heap := (heap S).

(** ** Memory holds the lists *)

Definition holds (h0 : heap) (y : view) (out : list T) (h : heap) : Prop :=
  hw h0 (v_buf y) (v_off y) (v_len y) (zn s0 out) h /\ zlen out = v_len y.

Section Apart.
Variables (h0 : heap) (x y : view).
Hypotheses (Vx : view_ok h0 x) (Vy : view_ok h0 y) (Ap : apart x y).

Lemma holds_start : holds h0 y (seen h0 y) h0.
Proof.
  assert (Hl : 0 <= v_len y) by apply Vy. split; [|unfold seen; rewrite zlen_map, zlen_zrange by lia; lia].
  split; [apply same_blocks_refl|]. intros b j. destruct (Z.eqb_spec b (v_buf y)) as [->|]; [|reflexivity]. destruct (Z.leb_spec (v_off y) j); [|reflexivity].
  destruct (Z.ltb_spec j (v_off y + v_len y)); [|reflexivity]. cbn [andb]. unfold seen. rewrite zn_map_zrange by lia.
  rewrite <- (view_read h0 y (j - v_off y)) by (assumption || lia). unfold v_at. f_equal. lia.
Qed.

Lemma read_in out h i t : holds h0 y out h -> get (seen h0 x) i = Ok t -> v_get h x i = Ok t.
Proof.
  intros (H & _) E. assert (Hl : 0 <= v_len x) by apply Vx. apply (get_Ok_inv s0) in E. destruct E as (Hi & ->).
  unfold seen in *. rewrite zlen_map, zlen_zrange in Hi by lia. rewrite zn_map_zrange by lia.
  rewrite view_get; [|apply (same_view_ok h0); [apply H|exact Vx]|lia]. f_equal. rewrite (hw_vat _ _ _ _ _ _ x i H).
  destruct (inside _ x i) eqn:E; [|reflexivity]. exfalso. unfold inside in E. cbn in E. rewrite !andb_true_iff, Z.eqb_eq, Z.leb_le, Z.ltb_lt in E.
  apply (Ap i (v_off x + i - v_off y)); [lia|lia|]. split; [apply E|lia].
Qed.

Lemma read_out out h i t : holds h0 y out h -> get out i = Ok t -> v_get h y i = Ok t.
Proof.
  intros (H & L) E. apply (get_Ok_inv s0) in E. destruct E as (Hi & ->). rewrite L in Hi.
  rewrite view_get; [|apply (same_view_ok h0); [apply H|exact Vy]|lia]. f_equal. rewrite (hw_vat _ _ _ _ _ _ y i H).
  unfold inside. cbn. rewrite Z.eqb_refl. destruct (Z.leb_spec (v_off y) (v_off y + i)); [|lia]. destruct (Z.ltb_spec (v_off y + i) (v_off y + v_len y)); [|lia].
  cbn [andb]. f_equal. lia.
Qed.

Lemma write_out out h i t : holds h0 y out h -> follows (fun o h => holds h0 y o h) (set out i t) (v_set h y i t).
Proof.
  intros (H & L) out' E. apply set_inv in E. destruct E as (Hi & ->). unfold v_set. destruct (Z.ltb_spec i (v_len y)); [|lia]. cbn [assert_ bind]. unfold v_put.
  assert (Vy' : view_ok h y) by (apply (same_view_ok h0); [apply H|exact Vy]).
  pose proof (view_read h y i Vy' ltac:(lia)) as Er. unfold v_at in Er.
  destruct (h_write_ok h (v_buf y) (v_off y + i) _ t Er) as (h' & -> & Sb & Rd). exists h'. split; [reflexivity|]. split; [|now rewrite zlen_upd'].
  destruct H as (Sb0 & Rd0). split; [eapply same_blocks_trans; eauto|]. intros b j. rewrite Rd, Rd0.
  destruct (Z.eqb_spec b (v_buf y)) as [->|]; cbn [andb]; [|reflexivity].
  destruct (Z.eqb_spec j (v_off y + i)) as [->|Hne].
  - destruct (Z.leb_spec (v_off y) (v_off y + i)); [|lia]. destruct (Z.ltb_spec (v_off y + i) (v_off y + v_len y)); [|lia]. cbn [andb].
    rewrite zn_upd by lia. destruct (Z.eqb_spec (v_off y + i - v_off y) i); [reflexivity|lia].
  - destruct (Z.leb_spec (v_off y) j); [|reflexivity]. destruct (Z.ltb_spec j (v_off y + v_len y)); [|reflexivity]. cbn [andb].
    rewrite zn_upd by lia. destruct (Z.eqb_spec (j - v_off y) i); [lia|reflexivity].
Qed.

Lemma fill_out : exists h, v_fill h0 y s0 = Ok h /\ holds h0 y (map (fun _ => s0) (seen h0 y)) h.
Proof.
  destruct (v_fill_hw h0 y s0 Vy) as (h & E & H). exists h. split; [exact E|]. assert (Hl : 0 <= v_len y) by apply Vy.
  split; [|unfold seen; rewrite !zlen_map, zlen_zrange by lia; lia]. destruct H as (Sb & Rd). split; [exact Sb|]. intros b j. rewrite Rd.
  destruct (Z.eqb_spec b (v_buf y)); [|reflexivity]. destruct (Z.leb_spec (v_off y) j); [|reflexivity]. destruct (Z.ltb_spec j (v_off y + v_len y)); [|reflexivity]. cbn [andb].
  unfold seen. rewrite map_map. rewrite zn_map_zrange by lia. reflexivity.
Qed.

Lemma len_x : zlen (seen h0 x) = v_len x.
Proof. unfold seen. rewrite zlen_map, zlen_zrange by apply Vx. lia. Qed.
Lemma len_y : zlen (seen h0 y) = v_len y.
Proof. unfold seen. rewrite zlen_map, zlen_zrange by apply Vy. lia. Qed.

End Apart.

Ltac on_get := cbv beta in *;
  match goal with
  | V : view_ok ?h0 ?x, W : view_ok ?h0 ?y, A : apart ?x ?y, H : holds ?h0 ?y ?out ?h |- follows _ (bind (get (seen ?h0 ?x) ?i) _) (bind (v_get ?h ?x ?i) _) =>
      let t := fresh "t" in let E := fresh "E" in
      apply (follows_bind eq); [intros t E; exists t; split; [eapply read_in; eassumption|reflexivity]|intros t ? <-]
  | W : view_ok ?h0 ?y, H : holds ?h0 ?y ?out ?h |- follows _ (bind (get ?out ?i) _) (bind (v_get ?h ?y ?i) _) =>
      let t := fresh "t" in let E := fresh "E" in
      apply (follows_bind eq); [intros t E; exists t; split; [eapply read_out; eassumption|reflexivity]|intros t ? <-]
  | W : view_ok ?h0 ?y, H : holds ?h0 ?y ?out ?h |- follows _ (set ?out ?i ?t) (v_set ?h ?y ?i ?t) => eapply write_out; eassumption
  end.

Ltac same := apply follows_same; intros ? _.

Lemma as_lists_of f g : (forall h0 x y, view_ok h0 x -> view_ok h0 y -> apart x y -> follows (fun o h => holds h0 y o h) (g (seen h0 x) (seen h0 y)) (f h0 x y)) -> as_on_lists f g.
Proof.
  intros H h x y out Vx Vy Ap E. destruct (H h x y Vx Vy Ap out E) as (h' & E' & Hw & L). exists h'. split; [exact E'|]. split; [now apply hw_writes|exact L].
Qed.

Lemma sp_mult_lists (A : csr S) : as_on_lists (m_sp_mult A) (sp_mult A).
Proof.
  apply as_lists_of. intros h0 x y Vx Vy Ap. unfold sp_mult, m_sp_mult. rewrite len_x, len_y by assumption. same. same.
  apply follows_for; [|now apply holds_start]. intros i out h H. same. same.
  apply (follows_bind eq); [|intros v ? <-; on_get]. apply follows_for; [|reflexivity]. intros j v ? <-. same. same. on_get. now apply follows_ret.
Qed.

Lemma sp_multAT_lists (A : csr S) : as_on_lists (m_sp_multAT A) (sp_multAT A).
Proof.
  apply as_lists_of. intros h0 x y Vx Vy Ap. unfold sp_multAT, m_sp_multAT. rewrite len_x, len_y by assumption. same. same.
  destruct (fill_out h0 y Vy) as (h & -> & Hh). cbn [bind].
  unfold for_entries. apply follows_for; [|exact Hh]. clear h Hh. intros i out h H. same. same.
  apply follows_for; [|exact H]. clear out h H. intros j out h H. same. same. on_get. on_get. on_get.
Qed.

Lemma d_mult_lists (D : dense S) : as_on_lists (m_d_mult D) (d_mult D).
Proof.
  apply as_lists_of. intros h0 x y Vx Vy Ap. unfold d_mult, m_d_mult. rewrite len_x, len_y by assumption. same. same.
  destruct (fill_out h0 y Vy) as (h & -> & Hh). cbn [bind].
  apply follows_for; [|exact Hh]. clear h Hh. intros i out h H.
  apply follows_for; [|exact H]. clear out h H. intros j out h H. same. on_get. on_get. on_get.
Qed.

Lemma d_multAT_lists (D : dense S) : as_on_lists (m_d_multAT D) (d_multAT D).
Proof.
  apply as_lists_of. intros h0 x y Vx Vy Ap. unfold d_multAT, m_d_multAT. rewrite len_x, len_y by assumption. same. same.
  apply follows_for; [|now apply holds_start]. intros i out h H.
  apply (follows_bind eq); [|intros v ? <-; on_get]. apply follows_for; [|reflexivity]. intros j v ? <-. same. on_get. now apply follows_ret.
Qed.

Lemma coo_mult_lists (M : coo S) : as_on_lists (m_coo_mult M) (coo_mult M).
Proof.
  apply as_lists_of. intros h0 x y Vx Vy Ap. unfold coo_mult, m_coo_mult. rewrite len_x, len_y by assumption. same. same.
  destruct (fill_out h0 y Vy) as (h & -> & Hh). cbn [bind]. apply follows_fold; [|exact Hh]. clear h Hh. intros e out h H. on_get. on_get. on_get.
Qed.

Lemma coo_multAT_lists (M : coo S) : as_on_lists (m_coo_multAT M) (coo_multAT M).
Proof.
  apply as_lists_of. intros h0 x y Vx Vy Ap. unfold coo_multAT, m_coo_multAT. rewrite len_x, len_y by assumption. same. same.
  destruct (fill_out h0 y Vy) as (h & -> & Hh). cbn [bind]. apply follows_fold; [|exact Hh]. clear h Hh. intros e out h H. on_get. on_get. on_get.
Qed.

Lemma lil_mult_lists (M : lil S) : as_on_lists (m_lil_mult M) (lil_mult M).
Proof.
  apply as_lists_of. intros h0 x y Vx Vy Ap. unfold lil_mult, m_lil_mult. rewrite len_x, len_y by assumption. same. same.
  destruct (fill_out h0 y Vy) as (h & -> & Hh). cbn [bind]. apply follows_for; [|exact Hh]. clear h Hh. intros i out h H. same.
  apply follows_fold; [|exact H]. clear out h H. intros n out h H. on_get. on_get. on_get.
Qed.

Lemma lil_multAT_lists (M : lil S) : as_on_lists (m_lil_multAT M) (lil_multAT M).
Proof.
  apply as_lists_of. intros h0 x y Vx Vy Ap. unfold lil_multAT, m_lil_multAT. rewrite len_x, len_y by assumption. same. same.
  destruct (fill_out h0 y Vy) as (h & -> & Hh). cbn [bind]. apply follows_for; [|exact Hh]. clear h Hh. intros i out h H. same.
  apply follows_fold; [|exact H]. clear out h H. intros n out h H. on_get. on_get. on_get.
Qed.

Lemma follows_bm {A B} (R : A -> B -> Prop) (M : bmat S) a b st1 vi1 fi1 st2 vi2 fi2 : R a b ->
  (forall r a b, R a b -> follows R (st1 r a) (st2 r b)) -> (forall r c v a b, R a b -> follows R (vi1 r c v a) (vi2 r c v b)) -> (forall r a b, R a b -> follows R (fi1 r a) (fi2 r b)) ->
  follows R (bm_for M a st1 vi1 fi1) (bm_for M b st2 vi2 fi2).
Proof.
  intros H Hs Hv Hf. unfold bm_for. apply follows_for; [|exact H]. clear a b H. intros i a b H. apply follows_same; intros lo _; apply follows_same; intros hi _.
  apply (follows_bind (fun p q : Z * _ => fst p = fst q /\ R (snd p) (snd q))).
  - apply follows_for; [|now split]. intros row [l u0] [l' w0] (E & K0). cbn [fst snd] in E, K0. subst l'. clear a b H. rename u0 into a, w0 into b, K0 into H.
    apply (follows_bind R); [now apply Hs|]. clear a b H. intros a b H. apply (follows_bind R); [|intros u w K; apply (follows_bind R); [now apply Hf|]; intros u' w' K'; apply follows_ret; now split].
    apply follows_for; [|exact H]. intros j u w K. same. destruct (_ || _); [now apply follows_ret|]. same. same. same.
    apply follows_for; [|exact K]. intros jj u' w' K'. same. same. now apply Hv.
  - intros [l a'] [l' b'] (_ & H'). now apply follows_ret.
Qed.

Lemma bm_mult_lists (M : bmat S) : as_on_lists (m_bm_mult M) (bm_mult M).
Proof.
  apply as_lists_of. intros h0 x y Vx Vy Ap. unfold bm_mult, m_bm_mult. rewrite len_x, len_y by assumption. same. same.
  destruct (fill_out h0 y Vy) as (h & -> & Hh). cbn [bind].
  apply (follows_bind (fun (p : T * list T) (q : T * heap) => fst p = fst q /\ holds h0 y (snd p) (snd q))); [|intros [v o] [v' h'] (_ & H'); now apply follows_ret].
  apply follows_bm; [now split| | |].
  - intros r [v o] [v' h'] (E & H). cbn [fst snd] in E, H. apply follows_ret. now split.
  - intros r c v0 [v o] [v' h'] (E & H). cbn [fst snd] in E, H. subst v'. on_get. apply follows_ret. now split.
  - intros r [v o] [v' h'] (E & H). cbn [fst snd] in E, H. subst v'. apply (follows_bind (fun o h => holds h0 y o h)); [on_get|]. intros o2 h2 H2. apply follows_ret. now split.
Qed.

Lemma bm_multAT_lists (M : bmat S) : as_on_lists (m_bm_multAT M) (bm_multAT M).
Proof.
  apply as_lists_of. intros h0 x y Vx Vy Ap. unfold bm_multAT, m_bm_multAT. rewrite len_x, len_y by assumption. same. same.
  destruct (fill_out h0 y Vy) as (h & -> & Hh). cbn [bind].
  apply follows_bm; [exact Hh| | |].
  - intros r o2 h2 H. now apply follows_ret.
  - intros r c v0 o2 h2 H. on_get. on_get. on_get.
  - intros r o2 h2 H. now apply follows_ret.
Qed.

(** ** Overlapping views *)

Lemma read_still (h : heap) x y i g h1 e (A : csr S) : view_ok h x -> read_in_time A x y -> In e (entries A) -> erow e = i -> 0 <= ecol e < v_len x ->
  hw h (v_buf y) (v_off y) i g h1 -> v_get h1 x (ecol e) = Ok (vat h x (ecol e)).
Proof.
  intros Vx Rt He Ei Hc Hw. rewrite view_get; [|apply (same_view_ok h); [apply Hw|exact Vx]|exact Hc]. f_equal. rewrite (hw_vat _ _ _ _ _ _ x (ecol e) Hw).
  destruct (inside _ x (ecol e)) eqn:E; [|reflexivity]. exfalso. unfold inside in E. cbn in E. rewrite !andb_true_iff, Z.eqb_eq, Z.leb_le, Z.ltb_lt in E.
  apply (Rt e (v_off x + ecol e - v_off y) He); [lia|]. split; [apply E|lia].
Qed.

Lemma sp_mult_in_time (A : csr S) h x y : csr_valid A -> view_ok h x -> view_ok h y -> v_len x = c_cols A -> v_len y = c_rows A -> read_in_time A x y ->
  exists h', m_sp_mult A h x y = Ok h' /\ writes h y (fun i => fold_left (dot_step (seen h x)) (row_entries A i) s0) h'.
Proof.
  intros V Vx Vy Hx Hy Rt. unfold m_sp_mult. rewrite Hx, Hy, !Z.eqb_refl. cbn [assert_ bind]. rewrite <- Hy.
  match goal with |- exists h', for_ _ _ _ ?b = _ /\ writes _ _ ?g _ => destruct (view_loop h y g b Vy) as (h' & E & H) end.
  - intros i h1 Hi Hw. rewrite !CsrFacts.get_ptr by (auto; lia). cbn [bind].
    rewrite (row_loop A i s0 _ (fun v e => Ok (dot_step (seen h x) v e))); [|exact V|lia|].
    + rewrite foldM_pure. cbn [bind]. unfold v_set. destruct (Z.ltb_spec i (v_len y)); [reflexivity|lia].
    + intros k v Hk. pose proof Hk as Hk'. apply position_bounds in Hk; auto. rewrite CsrFacts.get_val, CsrFacts.get_idx by (auto; tauto). cbn [bind].
      pose proof (idx_bounds A k V ltac:(tauto)) as Hb.
      assert (He : In (entry_at A (i, k)) (entries A)) by (rewrite entries_positions; now apply in_map).
      pose proof (read_still h x y i _ h1 _ A Vx Rt He eq_refl ltac:(cbn; lia) Hw) as Er. cbn [ecol entry_at fst snd] in Er.
      change (ecol (entry_at A (i, k))) with (idx A k) in Er. rewrite Er. cbn [bind]. unfold dot_step. cbn [evalue ecol entry_at fst snd]. do 3 f_equal.
      unfold vec_of, seen. rewrite zn_map_zrange by (cbn; lia). reflexivity.
  - exists h'. split; [exact E|]. now apply hw_writes.
Qed.

Lemma upper_in_time (A : csr S) x : (forall e, In e (entries A) -> erow e <= ecol e) -> read_in_time A x x.
Proof. intros H e i He Hi (_ & E). specialize (H e He). lia. Qed.

Lemma apart_in_time (A : csr S) x y : csr_valid A -> v_len x = c_cols A -> v_len y = c_rows A -> apart x y -> read_in_time A x y.
Proof.
  intros V Hx Hy Ap e i He Hi. pose proof (entries_in_shape A V) as Sh. unfold in_shape in Sh. rewrite Forall_forall in Sh. specialize (Sh e He).
  apply Ap; lia.
Qed.

Lemma keep_zero h0 y h i : view_ok h0 y -> holds h0 y (map (fun _ => s0) (seen h0 y)) h -> 0 <= i < v_len y ->
  v_get h y i = Ok s0 /\ exists h', v_set h y i s0 = Ok h' /\ holds h0 y (map (fun _ => s0) (seen h0 y)) h'.
Proof.
  intros Vy H Hi. set (zs := map (fun _ => s0) (seen h0 y)) in *. assert (L : zlen zs = v_len y) by apply H.
  assert (Ez : nth_error zs (Z.to_nat i) = Some s0).
  { destruct (nth_error zs (Z.to_nat i)) as [t|] eqn:E; [|apply nth_error_None in E; unfold zlen in L; lia].
    pose proof (nth_error_In _ _ E) as Hin. apply in_map_iff in Hin. destruct Hin as (? & <- & _). reflexivity. }
  split.
  - apply (read_out h0 y Vy zs h i s0 H). rewrite (get_ok s0) by lia. f_equal. unfold zn. now apply nth_error_nth.
  - destruct (write_out h0 y Vy zs h i s0 H (upd zs (Z.to_nat i) s0)) as (h' & E & H'); [now rewrite set_ok by lia|].
    exists h'. split; [exact E|]. rewrite upd_same in H' by exact Ez. exact H'.
Qed.

Lemma zeros_writes h0 y h : 0 <= v_len y -> holds h0 y (map (fun _ => s0) (seen h0 y)) h -> writes h0 y (fun _ => s0) h.
Proof.
  intros Hl (H & _) w Hw. apply hw_writes in H. destruct (H w Hw) as (A & B). split; [exact A|]. intros j Hj. rewrite B by exact Hj.
  destruct (inside y w j) eqn:E; [|reflexivity]. unfold inside in E. rewrite !andb_true_iff, Z.eqb_eq, Z.leb_le, Z.ltb_lt in E.
  unfold seen. rewrite map_map. rewrite zn_map_zrange by lia. reflexivity.
Qed.

Section Ring.
Hypothesis R : ring_laws S.

Lemma zero_term (a : T) : sadd s0 (smul a s0) = s0.
Proof. rewrite (smul_0_r R). apply (sadd_0_l R). Qed.

Lemma sp_multAT_in_place (A : csr S) h x : csr_valid A -> view_ok h x -> v_len x = c_rows A -> v_len x = c_cols A ->
  exists h', m_sp_multAT A h x x = Ok h' /\ writes h x (fun _ => s0) h'.
Proof.
  intros V Vx Hr Hc. unfold m_sp_multAT. rewrite <- Hr, <- Hc, !Z.eqb_refl. cbn [assert_ bind].
  destruct (fill_out h x Vx) as (h1 & -> & H1). cbn [bind]. rewrite Hr. rewrite for_entries_positions by exact V.
  enough (G : forall l h1, (forall p, In p l -> In p (positions A)) -> holds h x (map (fun _ => s0) (seen h x)) h1 ->
     exists h', foldM (fun s p => c <- get (c_idx A) (snd p) ;; a <- get (c_val A) (snd p) ;; xi <- v_get s x (fst p) ;; o <- v_get s x c ;; v_set s x c (sadd o (smul a xi))) l h1 = Ok h' /\
       holds h x (map (fun _ => s0) (seen h x)) h').
  { destruct (G (positions A) h1 ltac:(auto) H1) as (h' & E & H'). exists h'. split; [exact E|]. apply zeros_writes; [apply Vx|exact H']. }
  clear h1 H1. induction l as [|[i k] l IH]; intros h1 Hl H1; cbn [foldM]; [now exists h1|].
  pose proof (position_bounds A i k V (Hl _ (or_introl eq_refl))) as (Hi & Hk). pose proof (idx_bounds A k V Hk) as Hb. cbn [fst snd].
  rewrite CsrFacts.get_idx, CsrFacts.get_val by (auto; tauto). cbn [bind].
  destruct (keep_zero h x h1 i Vx H1 ltac:(lia)) as (-> & _). cbn [bind]. destruct (keep_zero h x h1 (idx A k) Vx H1 ltac:(lia)) as (-> & h2 & E2 & H2). cbn [bind].
  rewrite zero_term, E2. cbn [bind]. apply IH; [|exact H2]. intros p Hp. apply Hl. now right.
Qed.

Lemma d_mult_in_place (D : dense S) h x : dense_ok D -> view_ok h x -> v_len x = d_rows D -> v_len x = d_cols D ->
  exists h', m_d_mult D h x x = Ok h' /\ writes h x (fun _ => s0) h'.
Proof.
  intros V Vx Hr Hc. unfold m_d_mult. rewrite <- Hr, <- Hc, !Z.eqb_refl. cbn [assert_ bind].
  destruct (fill_out h x Vx) as (h1 & -> & H1). cbn [bind]. assert (Hl : 0 <= v_len x) by apply Vx.
  assert (G : returns (for_ 0 (v_len x) h1 (fun j h => for_ 0 (v_len x) h (fun i h => a <- d_get D i j ;; xj <- v_get h x j ;; o <- v_get h x i ;; v_set h x i (sadd o (smul a xj)))))
    (holds h x (map (fun _ => s0) (seen h x)))).
  { apply (returns_for (fun _ => holds h x (map (fun _ => s0) (seen h x)))); [exact Hl|exact H1| |auto]. intros j h2 Hj H2.
    apply (returns_for (fun _ => holds h x (map (fun _ => s0) (seen h x)))); [exact Hl|exact H2| |auto]. intros i h3 Hi H3.
    rewrite (d_get_ok D i j) by (auto; lia). cbn [bind].
    destruct (keep_zero h x h3 j Vx H3 ltac:(lia)) as (-> & _). cbn [bind]. destruct (keep_zero h x h3 i Vx H3 ltac:(lia)) as (-> & h4 & E4 & H4). cbn [bind].
    rewrite zero_term, E4. exact H4. }
  destruct (for_ 0 (v_len x) h1 _) as [h'|]; [|contradiction]. exists h'. split; [reflexivity|]. apply zeros_writes; [exact Hl|exact G].
Qed.

End Ring.

End VecMatProofs.

(** ** Values *)

Section Values.
Context {S : scalar}.
Notation T := (car S).
Notation heap := (heap S).
Hypothesis R : ring_laws S.

Lemma zlen_seen (h : heap) v : view_ok h v -> zlen (seen h v) = v_len v.
Proof. intros V. unfold seen. apply zlen_map_zrange. apply V. Qed.

Lemma vec_of_seen (h : heap) v i : 0 <= i < v_len v -> vec_of (seen h v) i = vat h v i.
Proof. intros Hi. unfold vec_of, seen. rewrite zn_map_zrange by lia. reflexivity. Qed.

Lemma writes_ext (h : heap) y g g' h' : (forall i, 0 <= i < v_len y -> g i = g' i) -> writes h y g h' -> writes h y g' h'.
Proof.
  intros E H w Hw. destruct (H w Hw) as (A & B). split; [exact A|]. intros j Hj. rewrite B by exact Hj. destruct (inside y w j) eqn:I; [|reflexivity].
  unfold inside in I. rewrite !andb_true_iff, Z.eqb_eq, Z.leb_le, Z.ltb_lt in I. apply E. lia.
Qed.

Lemma mat_vec_seen (M : mat S) n (h : heap) x i : v_len x = n -> mat_vec M n (vec_of (seen h x)) i = mat_vec M n (vat h x) i.
Proof. intros E. unfold mat_vec. apply sum_range_ext. intros j Hj. now rewrite vec_of_seen by lia. Qed.

Lemma sp_mult_overlap (A : csr S) (h : heap) x y : csr_valid A -> view_ok h x -> view_ok h y -> v_len x = c_cols A -> v_len y = c_rows A -> read_in_time A x y ->
  exists h', m_sp_mult A h x y = Ok h' /\ writes h y (mat_vec (csr_mat A) (c_cols A) (vat h x)) h'.
Proof.
  intros V Vx Vy Hx Hy Rt. destruct (sp_mult_in_time A h x y V Vx Vy Hx Hy Rt) as (h' & E & H). exists h'. split; [exact E|]. revert H. apply writes_ext.
  intros i Hi. rewrite (dot_row R) by (auto; lia). now apply mat_vec_seen.
Qed.

Lemma sp_mult_in_place (A : csr S) (h : heap) x : csr_valid A -> view_ok h x -> v_len x = c_cols A -> v_len x = c_rows A ->
  (forall e, In e (entries A) -> erow e <= ecol e) ->
  exists h', m_sp_mult A h x x = Ok h' /\ writes h x (mat_vec (csr_mat A) (c_cols A) (vat h x)) h'.
Proof. intros V Vx Hc Hr U. apply sp_mult_overlap; auto. now apply upper_in_time. Qed.

Lemma values_apart f g n (M : mat S) (h : heap) x y : as_on_lists f g -> view_ok h x -> view_ok h y -> apart x y -> v_len x = n ->
  (exists out, g (seen h x) (seen h y) = Ok out /\ zlen out = v_len y /\ forall i, 0 <= i < v_len y -> vec_of out i = mat_vec M n (vec_of (seen h x)) i) ->
  exists h', f h x y = Ok h' /\ writes h y (mat_vec M n (vat h x)) h'.
Proof.
  intros L Vx Vy Ap Hn (out & Eg & El & Ev). destruct (L h x y out Vx Vy Ap Eg) as (h' & E & H & _). exists h'. split; [exact E|]. revert H. apply writes_ext.
  intros i Hi. change (zn s0 out i) with (vec_of out i). rewrite Ev by exact Hi. now apply mat_vec_seen.
Qed.

Lemma sp_multAT_apart (A : csr S) (h : heap) x y : csr_valid A -> view_ok h x -> view_ok h y -> v_len x = c_rows A -> v_len y = c_cols A -> apart x y ->
  exists h', m_sp_multAT A h x y = Ok h' /\ writes h y (mat_vec (mat_T (csr_mat A)) (c_rows A) (vat h x)) h'.
Proof.
  intros V Vx Vy Hx Hy Ap. apply (values_apart _ _ _ _ _ _ _ (sp_multAT_lists A)); auto. rewrite Hy.
  apply (sp_multAT_spec R); auto; now rewrite zlen_seen.
Qed.

Lemma d_mult_apart (D : dense S) (h : heap) x y : dense_ok D -> view_ok h x -> view_ok h y -> v_len x = d_cols D -> v_len y = d_rows D -> apart x y ->
  exists h', m_d_mult D h x y = Ok h' /\ writes h y (mat_vec (dense_mat D) (d_cols D) (vat h x)) h'.
Proof.
  intros V Vx Vy Hx Hy Ap. apply (values_apart _ _ _ _ _ _ _ (d_mult_lists D)); auto. rewrite Hy.
  apply (d_mult_spec R); auto; now rewrite zlen_seen.
Qed.

Lemma d_multAT_apart (D : dense S) (h : heap) x y : dense_ok D -> view_ok h x -> view_ok h y -> v_len x = d_rows D -> v_len y = d_cols D -> apart x y ->
  exists h', m_d_multAT D h x y = Ok h' /\ writes h y (mat_vec (mat_T (dense_mat D)) (d_rows D) (vat h x)) h'.
Proof.
  intros V Vx Vy Hx Hy Ap. apply (values_apart _ _ _ _ _ _ _ (d_multAT_lists D)); auto. rewrite Hy.
  apply (d_multAT_spec R); auto; now rewrite zlen_seen.
Qed.

End Values.
