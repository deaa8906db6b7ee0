(** C113: rounding errors of elimination and of triangular systems, in doubles. *)

From Coq Require Import ZArith Reals List Bool Lia Floats.SpecFloat.
From Verif Require Import Base Scalar ScalarR Spec Dense Double RoundSpec RoundProofs LuQr LuQrSpec RoundTriSpec RoundTri RoundLu RoundLuSolve.
Import ListNotations.
Open Scope Z_scope.

Section Statements.
Variable n : Z.

(** forward_elim finishes with n doubles.  Whatever else over- or underflows, each row with a finite
    result and a finite diagonal entry is solved up to gamma_n |L| |x|; the entries above the diagonal
    are not used. *)
Theorem C113_forward_elimination (L : dense SFs) (b : list spec_float) : is_dense n n L -> zlen b = n -> Forall double (d_data L) -> Forall double b ->
  exists x, forward_elim L b = Ok x /\ zlen x = n /\ Forall double x /\
    forall i, 0 <= i < n -> finite (dense_mat L i i) -> finite (vec_of (S := SFs) x i) ->
      (forall j, 0 <= j < i -> finite (dense_mat L i j) /\ finite (vec_of (S := SFs) x j)) /\
      nearly_solves_row n (tril (real_dense L)) (real_vec b) (real_vec x) i.
Proof. intros HL Hb DL Db. destruct (forward_run n L b HL Hb DL Db) as (x & E & Hx & Dx & R). exists x. split; [exact E|]. split; [exact Hx|]. split; [exact Dx|]. intros i Hi Fd Fx. exact (proj2 (forward_row n L b DL Db x i Hi Dx (R i Hi) Fd Fx)). Qed.

(** back_solve, likewise with the upper triangle *)
Theorem C113_back_substitution (U : dense SFs) (b : list spec_float) : is_dense n n U -> zlen b = n -> Forall double (d_data U) -> Forall double b ->
  exists x, back_solve U b = Ok x /\ zlen x = n /\ Forall double x /\
    forall i, 0 <= i < n -> finite (dense_mat U i i) -> finite (vec_of (S := SFs) x i) ->
      (forall j, i < j < n -> finite (dense_mat U i j) /\ finite (vec_of (S := SFs) x j)) /\
      nearly_solves_row n (triu (real_dense U)) (real_vec b) (real_vec x) i.
Proof. intros HL Hb DL Db. destruct (back_run n U b HL Hb DL Db) as (x & E & Hx & Dx & R). exists x. split; [exact E|]. split; [exact Hx|]. split; [exact Dx|]. intros i Hi Fd Fx. exact (proj2 (back_row n U b DL Db x i Hi Dx (R i Hi) Fd Fx)). Qed.

(** lu_decomp finishes with an exactly unit lower triangular L, and the product of L and the upper
    triangle of U is A up to gamma_n |L| |U|, wherever the entries concerned are finite.  In doubles
    the entries of U below the diagonal need not be zero. *)
Theorem C113_factors (A : dense SFs) : is_dense n n A -> Forall double (d_data A) ->
  exists L U, lu_decomp A = Ok (L, U) /\ is_dense n n L /\ is_dense n n U /\ Forall double (d_data L) /\ Forall double (d_data U) /\
    (forall i, 0 <= i < n -> real_dense L i i = 1%R) /\ (forall i j, 0 <= i < j -> j < n -> real_dense L i j = 0%R) /\
    (forall j, 0 <= j < n -> 0 < n -> dense_mat U 0 j = dense_mat A 0 j) /\
    forall i j, 0 <= i < n -> 0 <= j < n -> (i <= j -> finite (dense_mat U i j)) -> (j < i -> finite (dense_mat L i j) /\ finite (dense_mat U j j)) ->
      nearly_product_at n (real_dense L) (triu (real_dense U)) (real_dense A) i j.
Proof. exact (factors n A). Qed.

(** Elimination and the two triangular solves together *)
Theorem C113_residual (A : dense SFs) (b : list spec_float) : is_dense n n A -> zlen b = n -> Forall double (d_data A) -> Forall double b ->
  exists L U x, lu_decomp A = Ok (L, U) /\ solve_lu L U b = Ok x /\ lu_solve A b = Ok x /\ zlen x = n /\ Forall double x /\
    ((forall j k, 0 <= k < j -> j < n -> finite (dense_mat L j k)) -> (forall j k, 0 <= j <= k -> k < n -> finite (dense_mat U j k)) -> (forall j, 0 <= j < n -> finite (vec_of (S := SFs) x j)) ->
     forall i, 0 <= i < n -> nearly_solves_lu n (real_dense L) (triu (real_dense U)) (real_dense A) (real_vec b) (real_vec x) i).
Proof. intros HA Hb DA Db. exact (solve_run n A b HA Hb DA Db). Qed.

(** So x solves exactly a system with a matrix that differs by at most gamma_3n |L| |U|, and a right-hand
    side that differs by a multiple of the smallest double. *)
Theorem C113_nearby_system (A : dense SFs) (b : list spec_float) : is_dense n n A -> zlen b = n -> Forall double (d_data A) -> Forall double b ->
  exists L U x, lu_decomp A = Ok (L, U) /\ lu_solve A b = Ok x /\
    ((forall j k, 0 <= k < j -> j < n -> finite (dense_mat L j k)) -> (forall j k, 0 <= j <= k -> k < n -> finite (dense_mat U j k)) -> (forall j, 0 <= j < n -> finite (vec_of (S := SFs) x j)) ->
     exists (E : mat Rs) (f : vect Rs),
       (forall i j, 0 <= i < n -> 0 <= j < n -> (Rabs (E i j) <= gamma (3 * n) * mat_mul (abs_of (real_dense L)) (abs_of (triu (real_dense U))) n i j)%R) /\
       (forall i, 0 <= i < n -> (Rabs (f i) <= growth (2 * n) * ((IZR n + 1 + @sum_range Rs 0 n (fun j => (IZR n + Rabs (triu (real_dense U) j j)) * (Rabs (real_dense L i j) + Rabs (real_vec x j)))) * underflow))%R) /\
       forall i, 0 <= i < n -> (mat_vec (S := Rs) (fun i j => real_dense A i j + E i j) n (real_vec x) i = real_vec b i - f i)%R).
Proof. exact (nearby_system n A b). Qed.

End Statements.
Print Assumptions C113_forward_elimination.
Print Assumptions C113_back_substitution.
Print Assumptions C113_factors.
Print Assumptions C113_residual.
Print Assumptions C113_nearby_system.

(* ---------------------------------------------------------------- a case that meets the hypotheses *)

Definition f1 : spec_float := S754_finite false 4503599627370496 (-52).
Definition f3 : spec_float := S754_finite false 6755399441055744 (-51).

(** The matrix with rows (3, 1) and (1, 3): the quotient 1/3 is rounded, and so is everything after it *)
Definition exLuA : dense SFs := @Dense SFs 2 2 [f3; f1; f1; f3].

Definition exLuX : spec_float := S754_finite false 4503599627370496 (-54).
Definition exLuY : spec_float := S754_finite false 4503599627370497 (-54).
Definition exLuNumbers (r : res (dense SFs * dense SFs)) : list spec_float * list spec_float := match r with Ok (L, U) => (d_data L, d_data U) | _ => ([], []) end.
Definition exLuVector (r : res (list (car SFs))) : list spec_float := match r with Ok x => x | _ => [] end.

Example C113_instance :
  is_dense 2 2 exLuA /\ Forall double (d_data exLuA) /\ Forall double [f1; f1] /\
  exLuNumbers (lu_decomp exLuA) = ([f1; S754_finite false 6004799503160661 (-54); S754_zero false; f1], [f3; S754_zero false; f1; S754_finite false 6004799503160661 (-51)]) /\
  exLuVector (lu_solve exLuA [f1; f1]) = [exLuX; exLuY].
Proof.
  split; [|split; [|split; [|split]]].
  - repeat split; vm_compute; congruence.
  - repeat constructor.
  - repeat constructor.
  - vm_compute. reflexivity.
  - vm_compute. reflexivity.
Qed.

Example C113_instance_residual : exists L U, lu_decomp exLuA = Ok (L, U) /\ forall i, 0 <= i < 2 ->
  nearly_solves_lu 2 (real_dense L) (triu (real_dense U)) (real_dense exLuA) (real_vec [f1; f1]) (real_vec [exLuX; exLuY]) i.
Proof.
  destruct C113_instance as (H1 & H2 & H3 & H4 & H5). destruct (C113_residual 2 exLuA [f1; f1] H1 eq_refl H2 H3) as (L & U & x & E1 & _ & E2 & _ & _ & R).
  destruct (C113_factors 2 exLuA H1 H2) as (L' & U' & E3 & (_ & RL & _) & (_ & RU & _) & _). rewrite E1 in E3. assert (EL : L' = L) by congruence. assert (EU : U' = U) by congruence. rewrite EL in RL. rewrite EU in RU. clear L' U' E3 EL EU.
  rewrite E1 in H4. rewrite E2 in H5. unfold exLuNumbers in H4. unfold exLuVector in H5. pose proof (f_equal fst H4) as D1. pose proof (f_equal snd H4) as D2. cbn [fst snd] in D1, D2. subst x.
  exists L, U. split; [exact E1|]. intros i Hi. apply R; [| | |exact Hi].
  - intros j k Hk Hj. assert (j = 1 /\ k = 0) as (-> & ->) by lia. unfold dense_mat. rewrite RL, D1. reflexivity.
  - intros j k Hj Hk. unfold dense_mat. rewrite RU, D2. assert (C : (j = 0 /\ k = 0) \/ (j = 0 /\ k = 1) \/ (j = 1 /\ k = 1)) by lia. destruct C as [(-> & ->)|[(-> & ->)|(-> & ->)]]; reflexivity.
  - intros j Hj. assert (C : j = 0 \/ j = 1) by lia. destruct C as [->| ->]; reflexivity.
Qed.
