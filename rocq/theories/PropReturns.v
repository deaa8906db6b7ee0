(** C114: functions that return a new object leave their arguments as they were, and the object
    is the one the corresponding in-place function would have produced. *)

From Coq Require Import ZArith List Bool Lia QArith Qcanon Reals Lra.
From Verif Require Import Base Scalar Spec Dense Sparse SparseMore Vec VecSpec Block Solver SolverSpec SolverProofs SolverExamples
  Returns ReturnsSpec ReturnsProofs ScalarR PropSolver.
Import ListNotations.
Open Scope Z_scope.

(** x + y, x - y, x * t, t * x, x / t and t / x, whatever was done with the vectors before; x and y
    may be the same vector. *)
Theorem C114_vector_operators :
  forall (S : scalar) (grow : Z -> Z -> Z) (st : vstate S) (x y : Z) (t : car S),
  reached grow st -> 0 <= x < zlen (values st) -> 0 <= y < zlen (values st) ->
  let l := zn [] (values st) x in let m := zn [] (values st) y in
  (zlen l = zlen m -> returns_new grow st (st_plus grow st x y) (entrywise sadd l m) /\ returns_new grow st (st_minus grow st x y) (entrywise ssub l m)) /\
  returns_new grow st (st_times grow st x t) (map (fun a => smul a t) l) /\
  (seqb t s0 = false -> returns_new grow st (st_over grow st x t) (map (fun a => sdiv a t) l)) /\
  returns_new grow st (st_under grow st t x) (map (fun a => sdiv t a) l).
Proof. exact @vec_operators. Qed.
Print Assumptions C114_vector_operators.

(** Vectors of different sizes and a zero divisor are refused. *)
Theorem C114_vector_operators_refuse :
  forall (S : scalar) (grow : Z -> Z -> Z) (st : vstate S) (x y : Z) (t : car S),
  reached grow st -> 0 <= x < zlen (values st) -> 0 <= y < zlen (values st) ->
  (zlen (zn [] (values st) x) <> zlen (zn [] (values st) y) -> st_plus grow st x y = Fail FAssert /\ st_minus grow st x y = Fail FAssert) /\
  (seqb t s0 = true -> st_over grow st x t = Fail FAssert).
Proof. exact @vec_operators_refused. Qed.
Print Assumptions C114_vector_operators_refuse.

Definition exOps : list (vop Zs) := [@POfList Zs [1; 2]; @POfList Zs [10; 20]; @POfList Zs [5]].

Example C114_vector_instance :
  exists st, run_vops (fun a b => a + b) (VState [] []) exOps = Ok st /\ reached (S := Zs) (fun a b => a + b) st /\ values st = [[1; 2]; [10; 20]; [5]] /\
    (exists st', st_minus (S := Zs) (fun a b => a + b) st 0 1 = Ok st' /\ values st' = [[1; 2]; [10; 20]; [5]; []; [-9; -18]]) /\
    (exists st', st_plus (S := Zs) (fun a b => a + b) st 1 1 = Ok st' /\ values st' = [[1; 2]; [10; 20]; [5]; []; [20; 40]]) /\
    st_plus (S := Zs) (fun a b => a + b) st 0 2 = Fail FAssert.
Proof.
  eexists. split; [vm_compute; reflexivity|]. split; [exists exOps, [[1; 2]; [10; 20]; [5]]; split; vm_compute; reflexivity|]. split; [reflexivity|].
  split; [eexists; split; [vm_compute; reflexivity|reflexivity]|]. split; [eexists; split; [vm_compute; reflexivity|reflexivity]|]. vm_compute. reflexivity.
Qed.

(** CG(A, b, ...) and PCG(A, M, b, ...): whatever start the random numbers give, the x returned
    meets the tolerance; with a relative tolerance of zero the bound does not depend on the start. *)
Theorem C114_pcg_any_start :
  forall (S : scalar), field_laws S -> eqb_laws S -> order_laws S ->
  forall (W : Type) (I : W -> Prop) (A : op S W) (n : Z) (mA : mat S),
  acts_as I A n mA -> mat_sym n mA ->
  forall (M : option (op S W)) (mM : mat S) (gen : Z -> car S) (par : sparams S) (w : W) (b : list (car S)),
  mat_pos_def n mA -> prec_applies I M n (mat_list mM n) -> mat_sym n mM -> I w -> zlen b = n ->
  slt s0 (smul (sp_abs par) (sp_abs par)) = true -> slt (sp_floor par) s0 = true -> n < sp_max par ->
  let q x := inner n (vec_of (mat_list mM n (residual mA n b x))) (vec_of (residual mA n b x)) in
  exists x, pcg_solution gen A M l_inner par w b = Ok x /\ zlen x = n /\
    slt (q x) (tolerance par (q (listed gen n))) = true /\
    (sp_rel par = s0 -> slt (q x) (smul (sp_abs par) (sp_abs par)) = true).
Proof. exact @pcg_solution_ok. Qed.
Print Assumptions C114_pcg_any_start.

(** MINRES(A, b, ...): the same, except that a start which happens to solve the system is refused
    (C43). *)
Theorem C114_minres_any_start :
  forall (S : scalar), field_laws S -> eqb_laws S -> order_laws S ->
  forall (W : Type) (I : W -> Prop) (A : op S W) (n : Z) (mA : mat S),
  acts_as I A n mA -> mat_sym n mA ->
  sum_order_laws S -> prod_order_laws S -> abs_laws S -> abs_square_law S ->
  forall (root : car S -> car S), mat_nonsingular n mA -> root_laws root ->
  forall (gen : Z -> car S) (par : sparams S) (w : W) (b : list (car S)), I w -> zlen b = n ->
  slt s0 (smul (sp_abs par) (sp_abs par)) = true -> n <= sp_max par -> 1 <= sp_max par ->
  ((forall i, 0 <= i < n -> (vec_of b i - mat_vec mA n gen i)%S = s0) /\ minres_solution gen root A l_inner par w b = Fail FAssert) \/
  exists x e0 e, minres_solution gen root A l_inner par w b = Ok x /\ zlen x = n /\
    norm_of n id_mat (residual mA n b (listed gen n)) e0 /\ norm_of n id_mat (residual mA n b x) e /\
    slt e (tolerance par e0) = true /\ (sp_rel par = s0 -> slt e (smul (sp_abs par) (sp_abs par)) = true).
Proof. exact @minres_solution_ok. Qed.
Print Assumptions C114_minres_any_start.

(** PMINRES(A, M, b, ...) *)
Theorem C114_pminres_any_start :
  forall (S : scalar), field_laws S -> eqb_laws S -> order_laws S ->
  forall (W : Type) (I : W -> Prop) (A : op S W) (n : Z) (mA : mat S),
  acts_as I A n mA -> mat_sym n mA ->
  sum_order_laws S -> prod_order_laws S -> abs_laws S -> abs_square_law S ->
  forall (root : car S -> car S), mat_nonsingular n mA -> root_laws root ->
  forall (M : op S W) (mM : mat S) (gen : Z -> car S) (par : sparams S) (w : W) (b : list (car S)),
  acts_as I M n mM -> mat_sym n mM -> mat_pos_def n mM -> I w -> zlen b = n ->
  slt s0 (smul (sp_abs par) (sp_abs par)) = true -> n <= sp_max par -> 1 <= sp_max par ->
  ((forall i, 0 <= i < n -> (vec_of b i - mat_vec mA n gen i)%S = s0) /\ pminres_solution gen root A M l_inner par w b = Fail FAssert) \/
  exists x e0 e, pminres_solution gen root A M l_inner par w b = Ok x /\ zlen x = n /\
    norm_of n mM (residual mA n b (listed gen n)) e0 /\ norm_of n mM (residual mA n b x) e /\
    slt e (tolerance par e0) = true /\ (sp_rel par = s0 -> slt e (smul (sp_abs par) (sp_abs par)) = true).
Proof. exact @pminres_solution_ok. Qed.
Print Assumptions C114_pminres_any_start.

(** A start in the middle of nowhere, and the solution of a 2 x 2 system. *)
Example C114_solver_instance :
  slt (s := Qcs) s0 (smul (sp_abs (parQ 10)) (sp_abs (parQ 10))) = true /\ slt (s := Qcs) (sp_floor (parQ 10)) s0 = true /\ 2 < sp_max (parQ 10) /\
  match pcg_solution (S := Qcs) (fun i => q (5 - 3 * i)) (sp_op (exSPD Qcs)) None l_inner (parQ 10) tt [q 3; q 4] with
  | Ok x => qeqs x [q 1; q 1]
  | Fail _ => false
  end = true.
Proof. split; [vm_compute; reflexivity|]. split; [vm_compute; reflexivity|]. split; [reflexivity|]. vm_compute. reflexivity. Qed.

(** MINRES and PMINRES over the reals; the other hypotheses are met as in C76_minres_instance. *)
Example C114_minres_instance :
  acts_as (fun _ => True) (sp_op (exSwap Rs)) 2 (csr_mat (exSwap Rs)) /\ mat_sym 2 (csr_mat (exSwap Rs)) /\ mat_nonsingular 2 (csr_mat (exSwap Rs)) /\
  slt (s := Rs) s0 (smul (sp_abs (parR 2)) (sp_abs (parR 2))) = true /\ 2 <= sp_max (parR 2) /\ 1 <= sp_max (parR 2).
Proof.
  split; [apply exSwap_acts, Rs_field|]. split; [apply exSwap_sym, Rs_field|]. split; [apply exSwap_nonsingular, Rs_field|].
  split; [|split; cbn; lia]. cbn. destruct (Rlt_dec 0 (1 / 1000000 * (1 / 1000000))) as [H|H]; [reflexivity|]. exfalso. apply H. lra.
Qed.

(** A X, A^T X and (A X)^T for a sparse A and a dense X. *)
Theorem C114_sparse_dense_products :
  forall (S : scalar), ring_laws S -> forall (A : csr S) (X : dense S), csr_valid A -> dense_ok X ->
  (d_rows X = c_cols A -> d_gives (sp_mult_dense_new A X) (c_rows A) (d_cols X) (mat_mul (csr_mat A) (dense_mat X) (c_cols A))) /\
  (d_rows X = c_rows A -> d_gives (sp_multAT_dense_new A X) (c_cols A) (d_cols X) (mat_mul (mat_T (csr_mat A)) (dense_mat X) (c_rows A))) /\
  (d_rows X = c_cols A -> d_gives (sp_multCT_dense_new A X) (d_cols X) (c_rows A) (mat_T (mat_mul (csr_mat A) (dense_mat X) (c_cols A)))).
Proof. exact @mult_dense_new. Qed.
Print Assumptions C114_sparse_dense_products.

Theorem C114_transpose_dense :
  forall (S : scalar), ring_laws S -> forall (A : csr S), csr_valid A -> no_dup_coords (entries A) ->
  d_gives (sp_transpose_dense_new A) (c_cols A) (c_rows A) (mat_T (csr_mat A)).
Proof. exact @transpose_dense_new. Qed.
Print Assumptions C114_transpose_dense.

(** GetCol(k) and GetRow(k) *)
Theorem C114_rows_and_columns :
  forall (S : scalar) (D : dense S) (k : Z), dense_ok D ->
  (0 <= k < d_cols D -> d_get_col_new D k = Ok (map (fun i => dense_mat D i k) (zrange 0 (d_rows D)))) /\
  (~ 0 <= k < d_cols D -> d_get_col_new D k = Fail FAssert) /\
  (0 <= k < d_rows D -> d_get_row_new D k = Ok (map (fun j => dense_mat D k j) (zrange 0 (d_cols D)))) /\
  (~ 0 <= k < d_rows D -> d_get_row_new D k = Fail FAssert).
Proof. exact @col_row_new. Qed.
Print Assumptions C114_rows_and_columns.

Example C114_matrix_instance :
  sp_multCT_dense_new (@CSR Zs 2 3 [0; 2; 3] [0; 2; 1] [1; 2; 3] : csr Zs) (@Dense Zs 3 1 [1; 10; 100]) = Ok (@Dense Zs 1 2 [201; 30]) /\
  sp_transpose_dense_new (@CSR Zs 2 3 [0; 2; 3] [0; 2; 1] [1; 2; 3] : csr Zs) = Ok (@Dense Zs 3 2 [1; 0; 2; 0; 3; 0]) /\
  d_get_row_new (@Dense Zs 2 2 [1; 2; 3; 4] : dense Zs) 1 = Ok [2; 4].
Proof. repeat split; vm_compute; reflexivity. Qed.
