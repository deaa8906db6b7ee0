(** Binary files: round trips and cut files. *)

From Coq Require Import ZArith List Bool Lia String.
From Verif Require Import Base Scalar Spec Dense Sparse Text Parser ParserSpec TextProofs ParserProofs ParserMore.
From Verif Require Import LoopFacts CsrFacts Rows HistoryProofs.
Import ListNotations.
Open Scope Z_scope.

Lemma le_bytes_length n : forall z, List.length (le_bytes n z) = n.
Proof. induction n as [|n IH]; intros z; [reflexivity|]. cbn [le_bytes List.length]. now rewrite IH. Qed.
Lemma le_value_bytes n : forall z, 0 <= z < 256 ^ Z.of_nat n -> le_value (le_bytes n z) = z.
Proof.
  induction n as [|n IH]; intros z Hz.
  - cbn in *. lia.
  - cbn [le_bytes le_value]. rewrite IH.
    + pose proof (Z.div_mod z 256 ltac:(lia)). lia.
    + rewrite Nat2Z.inj_succ, Z.pow_succ_r in Hz by lia. split; [apply Z.div_pos; lia|]. apply Z.div_lt_upper_bound; lia.
Qed.
Lemma size_round n : 0 <= n <= size_max -> dec_size (enc_size n) = n.
Proof. intros H. apply le_value_bytes. change (256 ^ Z.of_nat 8) with (2 ^ 64). unfold size_max in H. lia. Qed.
Lemma int_round n : fits_int n -> dec_int (enc_int n) = n.
Proof.
  intros H. unfold dec_int, enc_int. rewrite le_value_bytes.
  2: { change (256 ^ Z.of_nat 4) with (2 ^ 32). apply Z.mod_pos_bound. lia. }
  unfold to_int, fits_int, int_min, int_max in *. rewrite Zplus_mod_idemp_l. rewrite Z.mod_small by lia. lia.
Qed.
Lemma int_length n : List.length (enc_int n) = 4%nat.
Proof. apply le_bytes_length. Qed.

Lemma read_bytes_app buf a r : List.length a = List.length buf -> read_bytes buf (IS (a ++ r) true) = (a, IS r true).
Proof.
  intros H. unfold read_bytes. cbn [i_ok i_rest]. rewrite <- H. rewrite firstn_app, firstn_all, Nat.sub_diag, firstn_O, app_nil_r.
  rewrite H at 1. rewrite skipn_all, app_nil_r. rewrite skipn_app, skipn_all, Nat.sub_diag, skipn_O. cbn [app]. rewrite app_length.
  destruct (Nat.leb_spec (List.length a) (List.length a + List.length r)); [reflexivity|lia].
Qed.

Lemma skipn_skipn' {X} a : forall b (l : list X), skipn a (skipn b l) = skipn (a + b) l.
Proof.
  intros b. revert a. induction b as [|b IH]; intros a l; [now rewrite Nat.add_0_r, skipn_O|]. destruct l as [|x l]; [now rewrite !skipn_nil|].
  rewrite Nat.add_succ_r. cbn [skipn]. apply IH.
Qed.

Section Enc.
Context {X : Type} (w : nat) (enc : X -> list byte) (dec : list byte -> X).

Lemma enc_length v : (forall x, In x v -> List.length (enc x) = w) -> List.length (flat_map enc v) = (w * List.length v)%nat.
Proof.
  induction v as [|x v IH]; intros H; cbn [flat_map List.length]; [lia|]. rewrite app_length, H by (left; reflexivity).
  rewrite IH by (intros; apply H; right; assumption). lia.
Qed.
Lemma chunks_enc v : (forall x, In x v -> List.length (enc x) = w /\ dec (enc x) = x) -> chunks (List.length v) w dec (flat_map enc v) = v.
Proof.
  induction v as [|x v IH]; intros H; cbn [flat_map List.length chunks]; [reflexivity|].
  destruct (H x (or_introl eq_refl)) as (H1 & H2). rewrite <- H1. rewrite firstn_app, firstn_all, Nat.sub_diag, firstn_O, app_nil_r, H2.
  rewrite skipn_app, skipn_all, Nat.sub_diag, skipn_O. cbn [app]. rewrite H1, IH by (intros; apply H; right; assumption). reflexivity.
Qed.
Lemma chunks_length n : forall l, List.length (chunks n w dec l) = n.
Proof. induction n as [|n IH]; intros l; [reflexivity|]. cbn [chunks List.length]. now rewrite IH. Qed.
Lemma chunks_nth d n : forall l i, (i < n)%nat -> nth i (chunks n w dec l) d = dec (firstn w (skipn (i * w) l)).
Proof.
  induction n as [|n IH]; intros l i Hi; [lia|]. cbn [chunks]. destruct i as [|i]; [reflexivity|]. cbn [nth]. rewrite IH by lia.
  rewrite skipn_skipn'. do 2 f_equal. f_equal. cbn. lia.
Qed.
End Enc.

Lemma firstn_skipn_flat {X} (w : nat) (enc : X -> list byte) (d : X) v i : (forall x, In x v -> List.length (enc x) = w) -> (i < List.length v)%nat ->
  firstn w (skipn (i * w) (flat_map enc v)) = enc (nth i v d).
Proof.
  revert i. induction v as [|x v IH]; intros i H Hi; [cbn in Hi; lia|]. cbn [flat_map]. pose proof (H x (or_introl eq_refl)) as Hx.
  destruct i as [|i].
  - cbn [Nat.mul skipn nth]. rewrite <- Hx, firstn_app, firstn_all, Nat.sub_diag, firstn_O. apply app_nil_r.
  - cbn [nth]. rewrite <- (IH i) by (try (intros; apply H; right; assumption); cbn in Hi; lia). f_equal.
    replace (Datatypes.S i * w)%nat with (List.length (enc x) + i * w)%nat by (cbn; lia). rewrite skipn_app. rewrite (skipn_all2 (enc x)) by lia. cbn [app]. f_equal. lia.
Qed.

Section Binary.
Context {S : scalar}.
Notation T := (car S).
Notation csr := (csr S).
Context (L : layout S) (HL : layout_ok L).

Lemma write_array_all {X} lax (enc : X -> list byte) v : (lax = true \/ v <> []) -> write_array lax enc v (zlen v) = Ok (flat_map enc v).
Proof.
  intros H. unfold write_array, addr0. rewrite Z.leb_refl. unfold zlen. rewrite Nat2Z.id, firstn_all.
  destruct v; [|reflexivity]. destruct H as [->|H]; [reflexivity|congruence].
Qed.
Lemma read_into_all {X} lax w (enc : X -> list byte) dec (v : list X) (a : X) r :
  (forall x, List.length (enc x) = w) -> (forall x, In x v -> dec (enc x) = x) -> (lax = true \/ v <> []) ->
  read_into lax w enc dec (repeat a (List.length v)) (IS (flat_map enc v ++ r) true) = Ok (v, IS r true).
Proof.
  intros H1 H2 H3. unfold read_into, addr0.
  assert (E : match repeat a (List.length v) with [] => if lax then Ok tt else Fail FUB | _ :: _ => Ok tt end = Ok tt).
  { destruct v; [|reflexivity]. destruct H3 as [->|H3]; [reflexivity|congruence]. }
  rewrite E. cbn [bind]. rewrite read_bytes_app.
  - rewrite repeat_length, chunks_enc by auto. reflexivity.
  - rewrite !(enc_length w) by auto. now rewrite repeat_length.
Qed.

Lemma vec_size_ok {X} n w (a : X) : 0 <= n -> n * Z.of_nat w <= 2 ^ 63 - 1 -> vec_size n w a = Ok (repeat a (Z.to_nat n)).
Proof.
  intros H1 H2. unfold vec_size, vec. destruct (Z.ltb_spec (2 ^ 63 - 1) (n * Z.of_nat w)); [lia|]. destruct (Z.ltb_spec n 0); [lia|reflexivity].
Qed.

Lemma binary_vect_round lax v : (lax = true \/ v <> []) -> allocatable L (zlen v) -> Forall (kept L) v ->
  exists f, write_binary_vect L lax v = Ok f /\ read_binary_vect L lax f = Ok v.
Proof.
  intros H (Hs & Hm) Hk. destruct HL as (_ & _ & Hl). pose proof (zlen_nonneg v) as Hn. eexists. unfold write_binary_vect. rewrite write_array_all by exact H. cbn [bind].
  split; [reflexivity|]. unfold read_binary_vect. rewrite read_bytes_app by (unfold enc_size; now rewrite !le_bytes_length). cbn iota beta.
  rewrite size_round by (unfold size_max in *; lia). rewrite vec_size_ok by assumption. cbn [bind].
  replace (Z.to_nat (zlen v)) with (List.length v) by (unfold zlen; lia). rewrite <- (app_nil_r (flat_map (lo_enc L) v)).
  rewrite read_into_all; [reflexivity|exact Hl| |exact H]. intros x Hx. exact (proj1 (Forall_forall _ _) Hk x Hx).
Qed.

Lemma binary_mat_round lax (A : csr) : csr_valid A -> int_sized A -> (lax = true \/ 0 < nnz A) -> nnz A * Z.of_nat (lo_size L) <= 2 ^ 63 - 1 -> Forall (kept L) (c_val A) ->
  exists f, write_binary_mat L lax A = Ok f /\ read_binary_mat L lax f = Ok A.
Proof.
  intros V Hz H Hm Hk. destruct HL as (_ & _ & Hl). pose proof (cv_rows V) as Hr. pose proof (cv_cols V) as Hc. pose proof (zlen_nonneg (c_val A)) as Hn. fold (nnz A) in Hn.
  pose proof (cv_ptr_len V) as Ep. pose proof (cv_len V) as Ei. destruct Hz as (Z1 & Z2 & Z3). unfold int_max in *.
  assert (N1 : lax = true \/ c_ptr A <> []) by (right; intros E; rewrite E, zlen_nil in Ep; lia).
  assert (N2 : lax = true \/ c_idx A <> []) by (destruct H as [H|H]; [left; exact H|right; intros E; rewrite E, zlen_nil in Ei; unfold nnz in *; lia]).
  assert (N3 : lax = true \/ c_val A <> []) by (destruct H as [H|H]; [left; exact H|right; intros E; unfold nnz in H; rewrite E, zlen_nil in H; lia]).
  eexists. unfold write_binary_mat, sp_nnz. rewrite <- Ep, write_array_all by exact N1. rewrite <- Ei, write_array_all by exact N2. rewrite Ei, write_array_all by exact N3. cbn [bind].
  split; [reflexivity|]. unfold read_binary_mat, read_size. rewrite !read_bytes_app by (unfold enc_size; now rewrite !le_bytes_length). cbn [i_ok bind].
  rewrite read_bytes_app by (unfold enc_size; now rewrite !le_bytes_length). cbn [i_ok bind].
  rewrite read_bytes_app by (unfold enc_size; now rewrite !le_bytes_length). cbn [i_ok bind].
  fold (nnz A). rewrite !size_round by (unfold size_max; lia). rewrite Z.mod_small by lia. rewrite !vec_size_ok by lia. cbn [bind].
  replace (Z.to_nat (c_rows A + 1)) with (List.length (c_ptr A)) by (unfold zlen in Ep; lia).
  replace (repeat 0 (Z.to_nat (nnz A))) with (repeat 0 (List.length (c_idx A))) by (f_equal; unfold nnz, zlen in *; lia).
  replace (Z.to_nat (nnz A)) with (List.length (c_val A)) by (unfold nnz, zlen; lia).
  assert (Hz : int_sized A) by (unfold int_sized, int_max; lia).
  rewrite read_into_all; [|apply int_length|intros x Hx; apply int_round, (ptr_fits A x V Hz Hx)|exact N1]. cbn [bind].
  rewrite read_into_all; [|apply int_length|intros x Hx; apply int_round, (idx_fits A x V Hz Hx)|exact N2]. cbn [bind].
  rewrite <- (app_nil_r (flat_map (lo_enc L) (c_val A))).
  rewrite read_into_all; [|exact Hl|intros x Hx; exact (proj1 (Forall_forall _ _) Hk x Hx)|exact N3]. cbn [bind].
  rewrite !to_int_id by (unfold fits_int, int_min, int_max; lia). apply sp_make_valid, V.
Qed.

(* ---------------------------------------------------------------- cut files *)

Lemma read_bytes_cut buf a n : List.length a = List.length buf -> (n <= List.length a)%nat ->
  exists s, read_bytes buf (IS (firstn n a) true) = (firstn n a ++ skipn n buf, s).
Proof.
  intros H Hn. unfold read_bytes. cbn [i_ok i_rest]. eexists. f_equal. rewrite firstn_firstn, Nat.min_r by lia. f_equal. f_equal.
  rewrite firstn_length, Nat.min_l by lia. reflexivity.
Qed.

(** A vector file cut n bytes into the data. *)
Lemma binary_vect_cut v n : allocatable L (zlen v) -> Forall (kept L) v -> (n <= lo_size L * List.length v)%nat ->
  exists f v', write_binary_vect L true v = Ok f /\ read_binary_vect L true (firstn (8 + n) f) = Ok v' /\ zlen v' = zlen v /\
    (forall i, 0 <= i < zlen v -> (i + 1) * Z.of_nat (lo_size L) <= Z.of_nat n -> zn s0 v' i = zn s0 v i) /\
    (forall i, 0 <= i < zlen v -> Z.of_nat n <= i * Z.of_nat (lo_size L) -> zn s0 v' i = s0).
Proof.
  intros (Hs & Hm) Hk Hn. destruct HL as (Hw & H0 & Hl). pose proof (zlen_nonneg v) as Hz. eexists. eexists. unfold write_binary_vect. rewrite write_array_all by (left; reflexivity). cbn [bind].
  split; [reflexivity|]. unfold read_binary_vect.
  assert (E8 : List.length (enc_size (zlen v)) = 8%nat) by (unfold enc_size; apply le_bytes_length).
  rewrite firstn_app, E8. rewrite firstn_all2 by (rewrite E8; lia). replace (8 + n - 8)%nat with n by lia.
  rewrite read_bytes_app by (unfold enc_size; now rewrite !le_bytes_length). cbn iota beta.
  rewrite size_round by (unfold size_max in *; lia). rewrite vec_size_ok by assumption. cbn [bind].
  replace (Z.to_nat (zlen v)) with (List.length v) by (unfold zlen; lia). unfold read_into, addr0.
  assert (E : match repeat (s0 : T) (List.length v) with [] => Ok tt | _ :: _ => Ok tt end = Ok tt) by (destruct v; reflexivity). rewrite E. cbn [bind].
  set (w := lo_size L) in *.
  assert (L1 : List.length (flat_map (lo_enc L) v) = (w * List.length v)%nat) by (apply enc_length; intros; apply Hl).
  assert (L2 : List.length (flat_map (lo_enc L) (repeat s0 (List.length v))) = (w * List.length v)%nat) by (rewrite (enc_length w) by (intros; apply Hl); now rewrite repeat_length).
  destruct (read_bytes_cut (flat_map (lo_enc L) (repeat s0 (List.length v))) (flat_map (lo_enc L) v) n) as (s & Es); [congruence|lia|].
  rewrite Es. cbn [bind]. rewrite repeat_length. split; [reflexivity|]. split; [unfold zlen; now rewrite chunks_length|].
  split; intros i Hi Hb; unfold zn; rewrite chunks_nth by (unfold zlen in Hi; lia); fold w.
  - assert (Hb' : (Z.to_nat i * w + w <= n)%nat) by (unfold zlen in Hi; nia).
    rewrite skipn_app, firstn_app. rewrite skipn_firstn_comm, firstn_firstn, Nat.min_l by lia.
    rewrite (firstn_skipn_flat w (lo_enc L) s0) by (try (intros; apply Hl); unfold zlen in Hi; lia).
    rewrite firstn_length, skipn_length. fold w. rewrite (proj2 (Nat.sub_0_le _ _)) by lia. rewrite firstn_O, app_nil_r. apply (proj1 (Forall_forall _ _) Hk). apply nth_In. unfold zlen in Hi. lia.
  - assert (Hb' : (n <= Z.to_nat i * w)%nat) by (unfold zlen in Hi; nia).
    rewrite skipn_app. rewrite (skipn_all2 (firstn n _)) by (rewrite firstn_length; lia). cbn [app]. rewrite firstn_length, Nat.min_l by lia.
    rewrite skipn_skipn'. replace (Z.to_nat i * w - n + n)%nat with (Z.to_nat i * w)%nat by lia.
    rewrite (firstn_skipn_flat w (lo_enc L) s0) by (try (intros; apply Hl); rewrite repeat_length; unfold zlen in Hi; lia).
    rewrite nth_repeat. exact H0.
Qed.

End Binary.
