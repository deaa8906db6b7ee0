(** Printed matrices of ints and doubles. *)

From Coq Require Import ZArith List Bool Lia String SpecFloat.
From Verif Require Import Base Scalar Spec LoopFacts Text ParserSpec TextProofs Parser Double DoubleSpec DoubleProofs DoubleText DoubleMore Dense DenseFacts Sparse CsrFacts Print PrintSpec PrintProofs PrintFixed Examples.
Import ListNotations.
Open Scope list_scope.
Open Scope Z_scope.

Lemma matrix_det {S : scalar} (C : codec S) p label (A B : csr S) : csr_valid A -> csr_valid B ->
  Forall (worded C p) (c_val A) -> Forall (worded C p) (c_val B) -> Forall (survives C p) (c_val A) -> Forall (survives C p) (c_val B) ->
  sp_print C p label A = sp_print C p label B -> entries A = entries B.
Proof.
  intros VA VB WA WB SA SB E. rewrite !sp_print_report in E by assumption. apply Ok_inj in E. apply (f_equal (fun l => l ++ [])) in E.
  apply report_det in E; [|now apply entries_value|now apply entries_value]. destruct E as (E & _). apply (shown_survives C p); auto; now apply entries_value.
Qed.

Lemma int_matrix_det p label (A B : csr Zs) : csr_valid A -> csr_valid B -> Forall fits_int (c_val A) -> Forall fits_int (c_val B) ->
  sp_print int_codec p label A = sp_print int_codec p label B -> entries A = entries B.
Proof.
  intros VA VB FA FB. apply matrix_det; auto; try (apply Forall_forall; intros n _; apply int_word).
  - eapply Forall_impl; [|exact FA]. intros n. apply int_survives.
  - eapply Forall_impl; [|exact FB]. intros n. apply int_survives.
Qed.

Lemma double_matrix_det p label (A B : csr SFs) : 17 <= p <= 40 -> csr_valid A -> csr_valid B ->
  Forall (fun x => double x /\ finite x) (c_val A) -> Forall (fun x => double x /\ finite x) (c_val B) ->
  sp_print double_codec p label A = sp_print double_codec p label B -> entries A = entries B.
Proof.
  intros Hp VA VB FA FB. apply matrix_det; auto; try (apply Forall_forall; intros n _; apply double_word).
  - eapply Forall_impl; [|exact FA]. intros x (H1 & H2). now apply finite_keeps.
  - eapply Forall_impl; [|exact FB]. intros x (H1 & H2). now apply finite_keeps.
Qed.

(** Small integers as doubles *)
Definition sf (n : Z) : spec_float :=
  match n with
  | 0 => S754_zero false
  | Zpos m => let k := 52 - Z.log2 n in S754_finite false (Z.to_pos (n * 2 ^ k)) (- k)
  | Zneg m => let k := 52 - Z.log2 (Zpos m) in S754_finite true (Z.to_pos (Zpos m * 2 ^ k)) (- k)
  end.

Lemma sf_dense r c l : 0 <= r -> 0 <= c -> zlen l = r * c -> dense_ok (@Dense SFs r c l).
Proof. intros. repeat split; cbn; auto. Qed.

(** 1 and the next double *)
Definition one_and (k : positive) : csr SFs := @CSR SFs 1 1 [0; 1] [0] [S754_finite false (4503599627370496 + k) (-52)].

Lemma six_digits : exists A B : csr SFs, csr_valid A /\ csr_valid B /\ Forall (fun x => double x /\ finite x) (c_val A) /\ Forall (fun x => double x /\ finite x) (c_val B) /\
  sp_print double_codec 6 [] A = sp_print double_codec 6 [] B /\ entries A <> entries B.
Proof.
  exists (one_and 1), (one_and 2). split; [apply csr_validb_ok; vm_compute; reflexivity|]. split; [apply csr_validb_ok; vm_compute; reflexivity|].
  do 2 (split; [repeat constructor|]). split; [vm_compute; reflexivity|]. vm_compute. discriminate.
Qed.
