(** Properties C30 - C33, C70 - C72: VectorView and Vector; Vector part of C63. *)

From Coq Require Import ZArith List Bool Lia QArith Qcanon PrimFloat.
From Verif Require Import Base Scalar Spec Dense Examples Vec VecSpec VecMore VecNum VecLinks.
Import ListNotations.
Open Scope Z_scope.

(** Example memory: a buffer with 1 2 3 4 and one with 10 20. *)
Definition exH : heap Zs := [Some (@Block Zs [1; 2; 3; 4] 4); Some (@Block Zs [10; 20] 3)].
Lemma exH_view off n : 0 <= off -> 0 <= n -> off + n <= 4 -> view_ok exH (View 0 off n).
Proof. intros. split; [assumption|]. right. exists (@Block Zs [1; 2; 3; 4] 4). split; [reflexivity|]. cbn. auto. Qed.
Lemma exH_view1 : view_ok exH (View 1 0 2).
Proof. split; [discriminate|]. right. exists (@Block Zs [10; 20] 3). split; [reflexivity|]. cbn. split; discriminate. Qed.

(** Example program: a = {1,2,3}; b = a; VectorView(b + 1, 2) = 9; c = std::move(a). *)
Definition exP : list (vop Zs) := [@POfList Zs [1; 2; 3]; @PCopy Zs 0; @PFill Zs (RSub 1 1 2) 9; @PMove Zs 0].

(* ---------------------------------------------------------------- C30 *)

(** v[i] = t is seen by every view exactly where it shares that cell. *)
Theorem C30_element_write :
  forall (S : scalar) (h : heap S) (v : view) (i : Z) (t : car S), view_ok h v -> 0 <= i < v_len v ->
  exists h', v_set h v i t = Ok h' /\ writes h (View (v_buf v) (v_off v + i) 1) (fun _ => t) h'.
Proof. exact @set_writes. Qed.
Print Assumptions C30_element_write.

(** view = t *)
Theorem C30_view_fill :
  forall (S : scalar) (h : heap S) (v : view) (t : car S), view_ok h v ->
  exists h', v_fill h v t = Ok h' /\ writes h v (fun _ => t) h'.
Proof. exact @fill_writes. Qed.
Print Assumptions C30_view_fill.

(** view = view copies the elements into the viewed cells. *)
Theorem C30_view_assign :
  forall (S : scalar) (h : heap S) (z x : view), view_ok h z -> view_ok h x -> v_len x = v_len z -> ~ reads_behind z x ->
  exists h', v_assign h z x = Ok h' /\ writes h z (vat h x) h'.
Proof. exact @assign_writes. Qed.
Print Assumptions C30_view_assign.

(** The pattern left out above is outside the contract of std::copy. *)
Theorem C30_view_assign_behind_refuted :
  forall (S : scalar) (h : heap S) (z x : view), v_len x = v_len z -> reads_behind z x -> v_assign h z x = Fail FUB.
Proof. exact @assign_behind. Qed.
Print Assumptions C30_view_assign_behind_refuted.

(** Programs on Vectors and views of them compute what the same program computes on plain,
    unshared lists, whatever the library's growth policy. *)
Theorem C30_vectors_are_lists :
  forall (S : scalar) (grow : Z -> Z -> Z) (ops : list (vop S)) (vs : list (list (car S))),
  spec_vops [] ops = Some vs ->
  exists st, run_vops grow (VState [] []) ops = Ok st /\ values st = vs.
Proof. exact @vops_refine_start. Qed.
Print Assumptions C30_vectors_are_lists.

(** A Vector keeps its value through any calls that do not name it as their target. *)
Theorem C30_vectors_independent :
  forall (S : scalar) (grow : Z -> Z -> Z) (st : vstate S) (ops : list (vop S)) (vs : list (list (car S))) (y : Z),
  reached grow st -> spec_vops (values st) ops = Some vs -> 0 <= y < zlen (values st) -> Forall (fun o => ~ changes o y) ops ->
  exists st', run_vops grow st ops = Ok st' /\ zn [] (values st') y = zn [] (values st) y.
Proof. exact @frame_reached. Qed.
Print Assumptions C30_vectors_independent.

(** v = VectorView(v.begin() + off, n) with off > 0 reads elements it has cut off. *)
Theorem C30_assign_own_part_refuted :
  forall (S : scalar) (grow : Z -> Z -> Z) (l : list (car S)) (off n : Z) (st : vstate S),
  0 < off -> 0 < n -> off + n <= zlen l ->
  st_of_list grow (VState [] []) l = Ok st -> st_assign_view grow st 0 (RSub 0 off n) = Fail FUB.
Proof. exact @assign_own_part. Qed.
Print Assumptions C30_assign_own_part_refuted.

Example C30_instance :
  view_ok exH (View 0 1 2) /\ view_ok exH (View 0 2 2) /\ ~ reads_behind (View 0 1 2) (View 0 2 2) /\ reads_behind (View 0 2 2) (View 0 1 2) /\
  v_assign exH (View 0 1 2) (View 0 2 2) = Ok [Some (@Block Zs [1; 3; 4; 4] 4); Some (@Block Zs [10; 20] 3)] /\
  @spec_vops Zs [] exP = Some [[]; [1; 9; 9]; [1; 2; 3]] /\ Forall (fun o => ~ changes o 2) [@PFill Zs (RVar 1) 5; @PSwap Zs 0 1] /\
  @spec_vops Zs [[]; [1; 9; 9]; [1; 2; 3]] [@PFill Zs (RVar 1) 5; @PSwap Zs 0 1] = Some [[5; 5; 5]; []; [1; 2; 3]].
Proof.
  split; [apply exH_view; lia|]. split; [apply exH_view; lia|]. split; [intros (_ & K); cbn in K; lia|]. split; [split; [reflexivity|cbn; lia]|].
  split; [vm_compute; reflexivity|]. split; [vm_compute; reflexivity|]. split; [repeat constructor; cbn; intros K; lia|vm_compute; reflexivity].
Qed.

(* ---------------------------------------------------------------- C31 *)

(** In the order of the code, for every arithmetic. *)
Theorem C31_sum_in_order :
  forall (S : scalar) (h : heap S) (v : view), view_ok h v ->
  v_sum h v = Ok (fold_left (fun s i => sadd s (vat h v i)) (zrange 0 (v_len v)) s0).
Proof. exact @v_sum_fold. Qed.
Print Assumptions C31_sum_in_order.

Theorem C31_sum :
  forall (S : scalar), ring_laws S -> forall (h : heap S) (v : view), view_ok h v ->
  v_sum h v = Ok (sum_range 0 (v_len v) (vat h v)).
Proof. exact @v_sum_ring. Qed.
Print Assumptions C31_sum.

Theorem C31_inner_product :
  forall (S : scalar), ring_laws S -> forall (h : heap S) (v w : view), view_ok h v -> view_ok h w -> v_len w = v_len v ->
  v_inner h v w = Ok (sum_range 0 (v_len v) (fun i => smul (vat h v i) (vat h w i))).
Proof. exact @v_inner_ring. Qed.
Print Assumptions C31_inner_product.

Theorem C31_inner_product_sizes :
  forall (S : scalar) (h : heap S) (v w : view), v_len w <> v_len v -> v_inner h v w = Fail FAssert.
Proof. exact @v_inner_size. Qed.
Print Assumptions C31_inner_product_sizes.

Theorem C31_inner_symmetric :
  forall (S : scalar), ring_laws S -> forall (h : heap S) (v w : view), view_ok h v -> view_ok h w -> v_len w = v_len v ->
  v_inner h v w = v_inner h w v.
Proof. exact @v_inner_sym. Qed.
Print Assumptions C31_inner_symmetric.

(** With symmetry: bilinear. *)
Theorem C31_inner_linear :
  forall (S : scalar), ring_laws S -> forall (h : heap S) (v x y w : view) (a b : car S),
  view_ok h v -> view_ok h x -> view_ok h y -> view_ok h w ->
  v_len x = v_len v -> v_len y = v_len v -> v_len w = v_len v ->
  (forall i, 0 <= i < v_len v -> vat h v i = sadd (smul a (vat h x i)) (smul b (vat h y i))) ->
  exists p q, v_inner h x w = Ok p /\ v_inner h y w = Ok q /\ v_inner h v w = Ok (sadd (smul a p) (smul b q)).
Proof. exact @v_inner_linear. Qed.
Print Assumptions C31_inner_linear.

Theorem C31_max :
  forall (S : scalar), order_laws S -> forall (h : heap S) (v : view), view_ok h v -> 0 < v_len v ->
  exists m, v_max h v = Ok m /\ (exists i, 0 <= i < v_len v /\ m = vat h v i) /\ forall i, 0 <= i < v_len v -> sle (vat h v i) m.
Proof. exact @v_max_ok. Qed.
Print Assumptions C31_max.

Theorem C31_min :
  forall (S : scalar), order_laws S -> forall (h : heap S) (v : view), view_ok h v -> 0 < v_len v ->
  exists m, v_min h v = Ok m /\ (exists i, 0 <= i < v_len v /\ m = vat h v i) /\ forall i, 0 <= i < v_len v -> sle m (vat h v i).
Proof. exact @v_min_ok. Qed.
Print Assumptions C31_min.

Theorem C31_abs_max :
  forall (S : scalar), order_laws S -> forall (h : heap S) (v : view), view_ok h v -> 0 < v_len v ->
  exists m, v_abs_max h v = Ok m /\ (exists i, 0 <= i < v_len v /\ m = sabs (vat h v i)) /\ forall i, 0 <= i < v_len v -> sle (sabs (vat h v i)) m.
Proof. exact @v_abs_max_ok. Qed.
Print Assumptions C31_abs_max.

Theorem C31_abs_min :
  forall (S : scalar), order_laws S -> forall (h : heap S) (v : view), view_ok h v -> 0 < v_len v ->
  exists m, v_abs_min h v = Ok m /\ (exists i, 0 <= i < v_len v /\ m = sabs (vat h v i)) /\ forall i, 0 <= i < v_len v -> sle m (sabs (vat h v i)).
Proof. exact @v_abs_min_ok. Qed.
Print Assumptions C31_abs_min.

Theorem C31_extrema_of_nothing :
  forall (S : scalar) (h : heap S) (v : view), v_len v = 0 ->
  v_max h v = Fail FAssert /\ v_min h v = Fail FAssert /\ v_abs_max h v = Fail FAssert /\ v_abs_min h v = Fail FAssert.
Proof. exact @v_extrema_empty. Qed.
Print Assumptions C31_extrema_of_nothing.

(** mean * (1 + ... + 1) = sum *)
Theorem C31_mean :
  forall (S : scalar), field_laws S -> forall (h : heap S) (v : view), view_ok h v -> sum_range 0 (v_len v) (fun _ => @s1 S) <> s0 ->
  exists m, v_mean h v = Ok m /\ smul m (sum_range 0 (v_len v) (fun _ => s1)) = sum_range 0 (v_len v) (vat h v).
Proof. exact @mean_spec. Qed.
Print Assumptions C31_mean.

Example C31_instance :
  ring_laws Zs /\ order_laws Zs /\ view_ok exH (View 0 1 3) /\ view_ok exH (View 0 0 3) /\
  @v_sum Zs exH (View 0 1 3) = Ok 9 /\ v_inner exH (View 0 1 3) (View 0 0 3) = Ok 20 /\ v_max exH (View 0 1 3) = Ok 4 /\
  field_laws Qcs /\ sum_range 0 3 (fun _ => @s1 Qcs) <> s0.
Proof.
  split; [exact Zs_ring|]. split; [exact Zs_order|]. split; [apply exH_view; lia|]. split; [apply exH_view; lia|].
  split; [vm_compute; reflexivity|]. split; [vm_compute; reflexivity|]. split; [vm_compute; reflexivity|]. split; [exact Qcs_field|].
  intros K. apply (f_equal this) in K. vm_compute in K. discriminate.
Qed.

(* ---------------------------------------------------------------- C32 *)

(** [~ reads_behind z x] admits disjoint views, a view and itself, and a source that lies
    ahead of the target. *)
Theorem C32_admitted_aliasing :
  forall (z x : view), v_len x = v_len z ->
  (x = z \/ v_buf x <> v_buf z \/ v_off z <= v_off x \/ v_off x + v_len x <= v_off z) -> ~ reads_behind z x.
Proof. exact @disjoint_or_same. Qed.
Print Assumptions C32_admitted_aliasing.

Theorem C32_add_scaled_partial :
  forall (S : scalar) (h : heap S) (z : view) (alpha : car S) (x : view),
  view_ok h z -> view_ok h x -> v_len x = v_len z -> ~ reads_behind z x ->
  exists h', v_add_scaled h z alpha x = Ok h' /\ writes h z (fun i => sadd (vat h z i) (smul alpha (vat h x i))) h'.
Proof. exact @add_scaled_writes. Qed.
Print Assumptions C32_add_scaled_partial.

Theorem C32_sub_scaled_partial :
  forall (S : scalar) (h : heap S) (z : view) (alpha : car S) (x : view),
  view_ok h z -> view_ok h x -> v_len x = v_len z -> ~ reads_behind z x ->
  exists h', v_sub_scaled h z alpha x = Ok h' /\ writes h z (fun i => ssub (vat h z i) (smul alpha (vat h x i))) h'.
Proof. exact @sub_scaled_writes. Qed.
Print Assumptions C32_sub_scaled_partial.

Theorem C32_set_scaled_partial :
  forall (S : scalar) (h : heap S) (z : view) (alpha : car S) (x : view),
  view_ok h z -> view_ok h x -> v_len x = v_len z -> ~ reads_behind z x ->
  exists h', v_set_scaled h z alpha x = Ok h' /\ writes h z (fun i => smul alpha (vat h x i)) h'.
Proof. exact @set_scaled_writes. Qed.
Print Assumptions C32_set_scaled_partial.

(** +=, -=, *= with a view *)
Theorem C32_entrywise_partial :
  forall (S : scalar) (h : heap S) (z x : view), view_ok h z -> view_ok h x -> v_len x = v_len z -> ~ reads_behind z x ->
  (exists h', v_add_view h z x = Ok h' /\ writes h z (fun i => sadd (vat h z i) (vat h x i)) h') /\
  (exists h', v_sub_view h z x = Ok h' /\ writes h z (fun i => ssub (vat h z i) (vat h x i)) h') /\
  (exists h', v_mul_view h z x = Ok h' /\ writes h z (fun i => smul (vat h z i) (vat h x i)) h').
Proof. exact @view_ops_write. Qed.
Print Assumptions C32_entrywise_partial.

Theorem C32_divide_partial :
  forall (S : scalar) (h : heap S) (z x : view), view_ok h z -> view_ok h x -> v_len x = v_len z -> ~ reads_behind z x ->
  (forall i, 0 <= i < v_len x -> seqb (vat h x i) s0 = false) ->
  exists h', v_div_view h z x = Ok h' /\ writes h z (fun i => sdiv (vat h z i) (vat h x i)) h'.
Proof. exact @div_view_writes. Qed.
Print Assumptions C32_divide_partial.

(** Operators with a scalar: no aliasing question arises. *)
Theorem C32_scalar_operators :
  forall (S : scalar) (h : heap S) (z : view) (t : car S), view_ok h z ->
  (exists h', v_mul_scalar h z t = Ok h' /\ writes h z (fun i => smul (vat h z i) t) h') /\
  (exists h', v_add_scalar h z t = Ok h' /\ writes h z (fun i => sadd (vat h z i) t) h') /\
  (exists h', v_sub_scalar h z t = Ok h' /\ writes h z (fun i => ssub (vat h z i) t) h') /\
  (exists h', v_rdiv_scalar h t z = Ok h' /\ writes h z (fun i => sdiv t (vat h z i)) h') /\
  (seqb t s0 = false -> exists h', v_div_scalar h z t = Ok h' /\ writes h z (fun i => sdiv (vat h z i) t) h') /\
  (seqb t s0 = true -> v_div_scalar h z t = Fail FAssert).
Proof. exact @scalar_ops_write. Qed.
Print Assumptions C32_scalar_operators.

(** Add(alpha, x, beta, y, gamma, z) *)
Theorem C32_linear_combination_partial :
  forall (S : scalar) (h : heap S) (alpha : car S) (x : view) (beta : car S) (y : view) (gamma : car S) (z : view),
  view_ok h z -> view_ok h x -> view_ok h y -> v_len x = v_len z -> v_len y = v_len z ->
  ~ reads_behind z x -> ~ reads_behind z y ->
  exists h', v_axpby h alpha x beta y gamma z = Ok h' /\
    writes h z (fun i => sadd (sadd (smul alpha (vat h x i)) (smul beta (vat h y i))) (smul gamma (vat h z i))) h'.
Proof. exact @axpby_writes. Qed.
Print Assumptions C32_linear_combination_partial.

(** Add(x, y, z) and Sub(x, y, z) in exact arithmetic *)
Theorem C32_add_sub_partial :
  forall (S : scalar), ring_laws S -> forall (h : heap S) (x y z : view),
  view_ok h z -> view_ok h x -> view_ok h y -> v_len x = v_len z -> v_len y = v_len z ->
  ~ reads_behind z x -> ~ reads_behind z y ->
  (exists h', v_add3 h x y z = Ok h' /\ writes h z (fun i => sadd (vat h x i) (vat h y i)) h') /\
  (exists h', v_sub3 h x y z = Ok h' /\ writes h z (fun i => ssub (vat h x i) (vat h y i)) h').
Proof. exact @add3_writes. Qed.
Print Assumptions C32_add_sub_partial.

Theorem C32_size_checks :
  forall (S : scalar) (h : heap S) (z x : view) (alpha : car S) (op : car S -> car S -> car S), v_len x <> v_len z ->
  v_assign h z x = Fail FAssert /\ v_add_scaled h z alpha x = Fail FAssert /\ v_sub_scaled h z alpha x = Fail FAssert /\
  v_set_scaled h z alpha x = Fail FAssert /\ v_zip op h z x = Fail FAssert.
Proof. exact @size_checks. Qed.
Print Assumptions C32_size_checks.

(** Overlapping views: z = {v1, v2}, x = {v0, v1}.  z += x should give v2 + v1 in the last
    place but adds the already changed v1. *)
Theorem C32_overlap_refuted :
  exists (h h' : heap Zs) (z x : view), view_ok h z /\ view_ok h x /\ v_len x = v_len z /\ v_add_view h z x = Ok h' /\
    vat h' z 1 <> sadd (vat h z 1) (vat h x 1).
Proof.
  exists exH, [Some (@Block Zs [1; 3; 6; 4] 4); Some (@Block Zs [10; 20] 3)], (View 0 1 2), (View 0 0 2).
  split; [apply exH_view; lia|]. split; [apply exH_view; lia|]. split; [reflexivity|]. split; [vm_compute; reflexivity|]. vm_compute. discriminate.
Qed.
Print Assumptions C32_overlap_refuted.

(** Add(x, y, z) with doubles: z is read although it is only an output; if it holds an
    infinity or a NaN the result is a NaN. *)
Theorem C32_output_is_read_refuted :
  exists (h h' : heap Fs) (x y z : view), view_ok h x /\ view_ok h y /\ view_ok h z /\ v_len x = v_len z /\ v_len y = v_len z /\
    v_buf x <> v_buf z /\ v_buf y <> v_buf z /\ v_add3 h x y z = Ok h' /\
    vat h x 0 = 1%float /\ vat h y 0 = 2%float /\ PrimFloat.eqb (vat h' z 0) 3%float = false.
Proof.
  exists [Some (@Block Fs [1%float; 2%float] 2); Some (@Block Fs [infinity] 1)], [Some (@Block Fs [1%float; 2%float] 2); Some (@Block Fs [nan] 1)], (View 0 0 1), (View 0 1 1), (View 1 0 1).
  split; [split; [discriminate|right; eexists; split; [reflexivity|]; cbn; split; discriminate]|].
  split; [split; [discriminate|right; eexists; split; [reflexivity|]; cbn; split; discriminate]|].
  split; [split; [discriminate|right; eexists; split; [reflexivity|]; cbn; split; discriminate]|].
  split; [reflexivity|]. split; [reflexivity|]. split; [discriminate|]. split; [discriminate|]. repeat (split; [vm_compute; reflexivity|]). vm_compute. reflexivity.
Qed.
Print Assumptions C32_output_is_read_refuted.

Example C32_instance :
  view_ok exH (View 0 2 2) /\ view_ok exH (View 1 0 2) /\ ~ reads_behind (View 0 2 2) (View 1 0 2) /\
  @v_add_scaled Zs exH (View 0 2 2) 2 (View 1 0 2) = Ok [Some (@Block Zs [1; 2; 23; 44] 4); Some (@Block Zs [10; 20] 3)] /\
  (forall i, 0 <= i < 2 -> @seqb Zs (vat exH (View 1 0 2) i) s0 = false).
Proof.
  split; [apply exH_view; lia|]. split; [exact exH_view1|]. split; [intros (K & _); discriminate|]. split; [vm_compute; reflexivity|].
  intros i Hi. assert (i = 0 \/ i = 1) as [->| ->] by lia; reflexivity.
Qed.

(* ---------------------------------------------------------------- C33 *)

(** What v == w decides. *)
Theorem C33_compares_within_tolerance :
  forall (S : scalar) (tol : car S) (h : heap S) (v w : view), view_ok h v -> view_ok h w ->
  exists b, v_eq tol h v w = Ok b /\
    (b = true <-> v_len v = v_len w /\ forall i, 0 <= i < v_len v -> sle (sabs (ssub (vat h v i) (vat h w i))) tol).
Proof. exact @v_eq_ok. Qed.
Print Assumptions C33_compares_within_tolerance.

Theorem C33_dense_compares_within_tolerance :
  forall (S : scalar) (tol : car S) (D E : dense S), dense_ok D -> dense_ok E ->
  exists b, d_eq tol D E = Ok b /\
    (b = true <-> d_rows D = d_rows E /\ d_cols D = d_cols E /\
       forall i j, 0 <= i < d_rows D -> 0 <= j < d_cols D -> sle (sabs (ssub (dense_mat D i j) (dense_mat E i j))) tol).
Proof. exact @d_eq_ok. Qed.
Print Assumptions C33_dense_compares_within_tolerance.

Theorem C33_reflexive_partial :
  forall (S : scalar) (tol : car S) (h : heap S) (v : view), view_ok h v -> (forall a : car S, sle (sabs (ssub a a)) tol) -> v_eq tol h v v = Ok true.
Proof. exact @eq_refl_ok. Qed.
Print Assumptions C33_reflexive_partial.

Theorem C33_symmetric_partial :
  forall (S : scalar) (tol : car S) (h : heap S) (v w : view), view_ok h v -> view_ok h w ->
  (forall a b : car S, sabs (ssub a b) = sabs (ssub b a)) -> v_eq tol h v w = v_eq tol h w v.
Proof. exact @eq_sym_ok. Qed.
Print Assumptions C33_symmetric_partial.

(** When the tolerance separates different values (integers), == is equality, hence an
    equivalence that distinguishes different vectors. *)
Theorem C33_exact_types_partial :
  forall (S : scalar) (tol : car S) (h : heap S) (v w : view), view_ok h v -> view_ok h w ->
  (forall a b : car S, sle (sabs (ssub a b)) tol <-> a = b) ->
  exists b, v_eq tol h v w = Ok b /\ (b = true <-> v_len v = v_len w /\ forall i, 0 <= i < v_len v -> vat h v i = vat h w i).
Proof. exact @eq_exact. Qed.
Print Assumptions C33_exact_types_partial.

(** With doubles and the constant 1e-12 of the code: not transitive. *)
Theorem C33_transitive_refuted :
  exists (h : heap Fs) (u v w : view), view_ok h u /\ view_ok h v /\ view_ok h w /\
    v_eq (S := Fs) 1e-12%float h u v = Ok true /\ v_eq (S := Fs) 1e-12%float h v w = Ok true /\ v_eq (S := Fs) 1e-12%float h u w = Ok false.
Proof.
  exists [Some (@Block Fs [0%float; 1e-12%float; 2e-12%float] 3)], (View 0 0 1), (View 0 1 1), (View 0 2 1).
  split; [split; [discriminate|right; eexists; split; [reflexivity|]; cbn; split; discriminate]|].
  split; [split; [discriminate|right; eexists; split; [reflexivity|]; cbn; split; discriminate]|].
  split; [split; [discriminate|right; eexists; split; [reflexivity|]; cbn; split; discriminate]|].
  split; [vm_compute; reflexivity|]. split; vm_compute; reflexivity.
Qed.
Print Assumptions C33_transitive_refuted.

(** With doubles a NaN equals everything. *)
Theorem C33_distinguishes_refuted :
  exists (h : heap Fs) (u v : view), view_ok h u /\ view_ok h v /\
    v_eq (S := Fs) 1e-12%float h u v = Ok true /\ vat h u 0 = nan /\ vat h v 0 = 5%float.
Proof.
  exists [Some (@Block Fs [nan; 5%float] 2)], (View 0 0 1), (View 0 1 1).
  split; [split; [discriminate|right; eexists; split; [reflexivity|]; cbn; split; discriminate]|].
  split; [split; [discriminate|right; eexists; split; [reflexivity|]; cbn; split; discriminate]|].
  split; [vm_compute; reflexivity|]. split; vm_compute; reflexivity.
Qed.
Print Assumptions C33_distinguishes_refuted.

Example C33_instance :
  (forall a : car Zs, sle (sabs (ssub a a)) (0 : car Zs)) /\ (forall a b : car Zs, sabs (ssub a b) = sabs (ssub b a)) /\
  (forall a b : car Zs, sle (sabs (ssub a b)) (0 : car Zs) <-> a = b) /\
  v_eq (S := Zs) 0 exH (View 0 0 2) (View 0 1 2) = Ok false /\ v_eq (S := Zs) 0 exH (View 0 0 2) (View 0 0 2) = Ok true.
Proof.
  unfold sle. cbn. split; [intros; lia|]. split; [intros; lia|]. split; [intros; lia|]. split; vm_compute; reflexivity.
Qed.

(* ---------------------------------------------------------------- C63 (Vector) *)

(** After any program: the copy of a Vector has its value and the original keeps it (and
    C30_vectors_independent: neither follows later changes of the other). *)
Theorem C63_vector_copy :
  forall (S : scalar) (grow : Z -> Z -> Z) (st : vstate S) (y : Z), reached grow st -> 0 <= y < zlen (values st) ->
  exists st', run_vops grow st [PCopy y] = Ok st' /\ reached grow st' /\ values st' = values st ++ [zn [] (values st) y].
Proof. exact @vector_copy. Qed.
Print Assumptions C63_vector_copy.

(** Moving transfers the value and leaves an empty vector. *)
Theorem C63_vector_move :
  forall (S : scalar) (grow : Z -> Z -> Z) (st : vstate S) (y : Z), reached grow st -> 0 <= y < zlen (values st) ->
  exists st', run_vops grow st [PMove y] = Ok st' /\ reached grow st' /\ values st' = upd (values st) (Z.to_nat y) [] ++ [zn [] (values st) y].
Proof. exact @vector_move. Qed.
Print Assumptions C63_vector_move.

Theorem C63_vector_assign :
  forall (S : scalar) (grow : Z -> Z -> Z) (st : vstate S) (x y : Z), reached grow st -> 0 <= x < zlen (values st) -> 0 <= y < zlen (values st) ->
  exists st', run_vops grow st [PAssign x y] = Ok st' /\ reached grow st' /\ values st' = upd (values st) (Z.to_nat x) (zn [] (values st) y).
Proof. exact @vector_assign. Qed.
Print Assumptions C63_vector_assign.

Theorem C63_vector_swap :
  forall (S : scalar) (grow : Z -> Z -> Z) (st : vstate S) (x y : Z), reached grow st -> 0 <= x < zlen (values st) -> 0 <= y < zlen (values st) ->
  exists st', run_vops grow st [PSwap x y] = Ok st' /\ reached grow st' /\
    zlen (values st') = zlen (values st) /\ zn [] (values st') x = zn [] (values st) y /\ zn [] (values st') y = zn [] (values st) x /\
    forall k, 0 <= k -> k <> x -> k <> y -> zn [] (values st') k = zn [] (values st) k.
Proof. exact @vector_swap. Qed.
Print Assumptions C63_vector_swap.

Theorem C63_vector_self_assign :
  forall (S : scalar) (grow : Z -> Z -> Z) (st : vstate S) (x : Z), reached grow st -> 0 <= x < zlen (values st) ->
  (exists st', run_vops grow st [PAssign x x] = Ok st' /\ reached grow st' /\ values st' = values st) /\
  (exists st', run_vops grow st [PMoveAssign x x] = Ok st' /\ reached grow st' /\ values st' = values st) /\
  (exists st', run_vops grow st [PSwap x x] = Ok st' /\ reached grow st' /\ values st' = values st).
Proof. exact @vector_self_assign. Qed.
Print Assumptions C63_vector_self_assign.

Example C63_vector_instance :
  exists st, reached (fun _ n => n) st /\ values (S := Zs) st = [[]; [1; 9; 9]; [1; 2; 3]].
Proof.
  destruct (C30_vectors_are_lists Zs (fun _ n => n) exP [[]; [1; 9; 9]; [1; 2; 3]]) as (st & E & V); [vm_compute; reflexivity|].
  exists st. split; [|exact V]. exists exP, [[]; [1; 9; 9]; [1; 2; 3]]. split; [vm_compute; reflexivity|exact E].
Qed.

(* ---------------------------------------------------------------- C70 *)

(** GetSubVector(indices, y): y gets the listed elements in order, and nothing else changes. *)
Theorem C70_get_sub_vector :
  forall (S : scalar) (grow : Z -> Z -> Z) (st : vstate S) (r : vref) (ids : list Z) (y x off n : Z),
  reached grow st -> lref (values st) r = Some (x, off, n) -> 0 <= y < zlen (values st) -> y <> x -> Forall (fun j => 0 <= j < n) ids ->
  exists st', st_sub_vector grow st r ids y = Ok st' /\
    values st' = upd (values st) (Z.to_nat y) (map (fun j => zn s0 (zn [] (values st) x) (off + j)) ids).
Proof. exact @sub_vector_reached. Qed.
Print Assumptions C70_get_sub_vector.

Example C70_instance :
  lref (S := Zs) [[]; [1; 9; 9]; [1; 2; 3]] (RSub 2 1 2) = Some (2, 1, 2) /\ Forall (fun j => 0 <= j < 2) [1; 0; 1] /\
  map (fun j => zn 0 (zn [] [[]; [1; 9; 9]; [1; 2; 3]] 2) (1 + j)) [1; 0; 1] = [3; 2; 3].
Proof. split; [reflexivity|]. split; [repeat constructor; discriminate|reflexivity]. Qed.

(* ---------------------------------------------------------------- C71 *)

Theorem C71_index_in_range :
  forall (S : scalar) (h : heap S) (v : view) (i : Z), view_ok h v -> 0 <= i < v_len v -> v_get h v i = Ok (vat h v i).
Proof. exact @get_in. Qed.
Print Assumptions C71_index_in_range.

Theorem C71_index_above_partial :
  forall (S : scalar) (h : heap S) (v : view) (i : Z) (t : car S), v_len v <= i -> v_get h v i = Fail FAssert /\ v_set h v i t = Fail FAssert.
Proof. exact @get_above. Qed.
Print Assumptions C71_index_above_partial.

(** A negative index passes the check and reads, or overwrites, a neighbour. *)
Theorem C71_negative_index_refuted :
  exists (h h' : heap Zs) (v : view), view_ok h v /\ v_get h v (-1) = Ok 2 /\ v_set (S := Zs) h v (-1) 7 = Ok h' /\ vat (S := Zs) h' (View 0 0 4) 1 = 7.
Proof.
  exists exH, [Some (@Block Zs [1; 7; 3; 4] 4); Some (@Block Zs [10; 20] 3)], (View 0 2 2). split; [apply exH_view; lia|]. split; [vm_compute; reflexivity|]. split; vm_compute; reflexivity.
Qed.
Print Assumptions C71_negative_index_refuted.

(* ---------------------------------------------------------------- C72 *)

(** SubAvg subtracts one number from every element and leaves sum 0. *)
Theorem C72_sub_avg :
  forall (S : scalar), field_laws S -> forall (h : heap S) (v : view), view_ok h v -> sum_range 0 (v_len v) (fun _ => @s1 S) <> s0 ->
  exists h' m, v_sub_avg h v = Ok h' /\ writes h v (fun i => ssub (vat h v i) m) h' /\ v_sum h' v = Ok s0.
Proof. exact @sub_avg_sum. Qed.
Print Assumptions C72_sub_avg.

(** Normalize divides by the norm and leaves norm 1. *)
Theorem C72_normalize :
  forall (S : scalar), field_laws S -> eqb_laws S -> forall (sqrt : car S -> car S) (h : heap S) (v : view) (p : car S),
  view_ok h v -> v_inner h v v = Ok p -> smul (sqrt p) (sqrt p) = p -> p <> s0 ->
  exists h', v_normalize sqrt h v = Ok h' /\ writes h v (fun i => sdiv (vat h v i) (sqrt p)) h' /\ v_inner h' v v = Ok s1.
Proof. exact @normalize_spec. Qed.
Print Assumptions C72_normalize.

(** Randomize writes the values of the generator in order. *)
Theorem C72_randomize :
  forall (S : scalar) (gen : Z -> car S) (h : heap S) (v : view), view_ok h v ->
  exists h', v_randomize gen h v = Ok h' /\ writes h v gen h'.
Proof. exact @randomize_writes. Qed.
Print Assumptions C72_randomize.

Example C72_instance :
  let h : heap Qcs := [Some (@Block Qcs [Q2Qc 3%Q; Q2Qc 4%Q] 2)] in
  field_laws Qcs /\ eqb_laws Qcs /\ view_ok h (View 0 0 2) /\ v_inner h (View 0 0 2) (View 0 0 2) = Ok (Q2Qc 25%Q : car Qcs) /\
  (Q2Qc 5%Q * Q2Qc 5%Q)%Qc = Q2Qc 25%Q /\ Q2Qc 25%Q <> 0%Qc.
Proof.
  cbv zeta. split; [exact Qcs_field|]. split; [exact Qcs_eqb|]. split.
  { split; [discriminate|right; eexists; split; [reflexivity|]; cbn; split; discriminate]. }
  split; [vm_compute; f_equal; apply Qc_is_canon; reflexivity|]. split; [apply Qc_is_canon; reflexivity|]. intros K. apply (f_equal this) in K. vm_compute in K. discriminate.
Qed.
