(** C112: arithmetic of distributed vectors, and what the functions of VectorView do when given one. *)

From Coq Require Import ZArith List Bool Lia Reals Lra.
From Verif Require Import Base Scalar Spec Vec VecSpec Block Solver SolverSpec BasicsSpec Par ParSpec ParVecProofs ParExamples ParVec ParVecSpec ParVecMore ParVecNorm ScalarR.
Import ListNotations.
Open Scope Z_scope.

(** InnerProduct(x, y), x * y, x.Mult(y), Mult(x, y) of ParVectors: every rank gets the inner product of the
    distributed vectors. *)
Theorem C112_inner_parvector :
  forall (S : scalar), ring_laws S -> forall (red : allreduce (S := S)), sums red ->
  forall (ws : list (heap S * view * view)), ws <> [] -> same_layout ws ->
  inner_product_of Dist red ws = Ok (map (fun _ => dot (dist_list (vec_x ws)) (dist_list (vec_y ws))) ws).
Proof. intros S R red Hs ws. exact (par_mult_ok R red ws Hs). Qed.
Print Assumptions C112_inner_parvector.

(** The same calls with VectorViews or Vectors: every rank gets the inner product of its own parts. *)
Theorem C112_inner_plain :
  forall (S : scalar), ring_laws S -> forall (red : allreduce (S := S)) (ws : list (heap S * view * view)), same_layout ws ->
  inner_product_of Plain red ws = Ok (map (fun '(h, x, y) => inner (v_len x) (vat h x) (vat h y)) ws).
Proof. intros S R red ws H. rewrite (map_ext _ (fun w => inner (v_len (snd (fst w))) (vat (fst (fst w)) (snd (fst w))) (vat (fst (fst w)) (snd w)))) by (now intros [[h x] y]). exact (plain_mult R red ws H). Qed.
Print Assumptions C112_inner_plain.

(** x.L2Norm() and L2Norm(x) of a ParVector: the root of the global inner product, on every rank. *)
Theorem C112_norm_parvector :
  forall (S : scalar), ring_laws S -> forall (red : allreduce (S := S)) (root : car S -> car S), sums red ->
  forall (ws : list (heap S * view)), ws <> [] -> (forall h x, In (h, x) ws -> view_ok h x) ->
  l2norm_of Dist red root ws = Ok (map (fun _ => root (dot (dist_list ws) (dist_list ws))) ws).
Proof. intros S R red root Hs ws. exact (l2norm_dist R red root ws Hs). Qed.
Print Assumptions C112_norm_parvector.

(** x.L2Norm() and L2Norm(x) of a VectorView or Vector: that of the rank's own part. *)
Theorem C112_norm_plain :
  forall (S : scalar), ring_laws S -> forall (red : allreduce (S := S)) (root : car S -> car S) (ws : list (heap S * view)),
  (forall h x, In (h, x) ws -> view_ok h x) ->
  l2norm_of Plain red root ws = Ok (map (fun w => root (inner (v_len (snd w)) (vat (fst w) (snd w)) (vat (fst w) (snd w)))) ws).
Proof. exact @l2norm_plain. Qed.
Print Assumptions C112_norm_plain.

(** ParMult(comm, x, y) of VectorViews or Vectors: the inner product of the distributed vectors. *)
Theorem C112_par_mult_plain :
  forall (S : scalar), ring_laws S -> forall (red : allreduce (S := S)), sums red ->
  forall (ws : list (heap S * view * view)), ws <> [] -> same_layout ws ->
  par_mult_of Plain red ws = Ok (map (fun _ => dot (dist_list (vec_x ws)) (dist_list (vec_y ws))) ws).
Proof. intros S R red Hs ws. exact (par_mult_ok R red ws Hs). Qed.
Print Assumptions C112_par_mult_plain.

(** ParMult(comm, x, y) of ParVectors is not their inner product: it is that times the number of ranks. *)
Theorem C112_par_mult_parvector_refuted :
  forall (S : scalar), ring_laws S -> forall (red : allreduce (S := S)), sums red ->
  forall (ws : list (heap S * view * view)), ws <> [] -> same_layout ws ->
  par_mult_of Dist red ws = Ok (map (fun _ => smul (of_int (zlen ws)) (dot (dist_list (vec_x ws)) (dist_list (vec_y ws)))) ws).
Proof. intros S R red Hs ws. exact (par_mult_dist R red ws Hs). Qed.
Print Assumptions C112_par_mult_parvector_refuted.

(** ParL2Norm(comm, x) of a VectorView or Vector is the norm of the distributed vector... *)
Theorem C112_par_l2norm_plain :
  forall (S : scalar), ring_laws S -> forall (red : allreduce (S := S)) (root : car S -> car S), sums red ->
  forall (ws : list (heap S * view)), ws <> [] -> (forall h x, In (h, x) ws -> view_ok h x) ->
  par_l2norm_of Plain red root ws = Ok (map (fun _ => root (dot (dist_list ws) (dist_list ws))) ws).
Proof. intros S R red root Hs ws. exact (par_l2norm_ok R red root ws Hs). Qed.
Print Assumptions C112_par_l2norm_plain.

(** ... of a ParVector it is the root of the number of ranks times the square of the norm. *)
Theorem C112_par_l2norm_parvector_refuted :
  forall (S : scalar), ring_laws S -> forall (red : allreduce (S := S)) (root : car S -> car S), sums red ->
  forall (ws : list (heap S * view)), ws <> [] -> (forall h x, In (h, x) ws -> view_ok h x) ->
  par_l2norm_of Dist red root ws = Ok (map (fun _ => root (smul (of_int (zlen ws)) (dot (dist_list ws) (dist_list ws)))) ws).
Proof. intros S R red root Hs ws. exact (par_l2norm_dist R red root ws Hs). Qed.
Print Assumptions C112_par_l2norm_parvector_refuted.

(** x += y, x -= y, x *= y and, with no zero in y, x /= y of ParVectors act on every element of the distributed
    vector and on nothing else. *)
Theorem C112_operators :
  forall (S : scalar) (ws : list (heap S * view * view)), same_layout ws -> (forall h x y, In (h, x, y) ws -> ~ reads_behind x y) ->
  elementwise sadd ws (pv_add ws) /\ elementwise ssub ws (pv_sub ws) /\ elementwise smul ws (pv_mul ws) /\
  ((forall h x y, In (h, x, y) ws -> forall i, 0 <= i < v_len y -> seqb (vat h y i) s0 = false) -> elementwise sdiv ws (pv_div ws)).
Proof. intros S ws L N. apply pv_ops_ok. intros h x y I. exact (conj (L h x y I) (N h x y I)). Qed.
Print Assumptions C112_operators.

(** Parts of different sizes on some rank are refused. *)
Theorem C112_operators_refuse :
  forall (S : scalar) (ws : list (heap S * view * view)),
  (forall h x y, In (h, x, y) ws -> (view_ok h x /\ view_ok h y /\ ~ reads_behind x y) \/ v_len y <> v_len x) ->
  (exists h x y, In (h, x, y) ws /\ v_len y <> v_len x) ->
  pv_add ws = Fail FAssert /\ pv_sub ws = Fail FAssert /\ pv_mul ws = Fail FAssert.
Proof. exact @pv_ops_refused. Qed.
Print Assumptions C112_operators_refuse.

(** x = t sets every element of the distributed vector, and nothing else. *)
Theorem C112_assign_value :
  forall (S : scalar) (t : car S) (ws : list (heap S * view)), (forall h x, In (h, x) ws -> view_ok h x) ->
  exists hs, pv_fill t ws = Ok hs /\ Forall2 (fun w h' => writes (fst w) (snd w) (fun _ => t) h') ws hs /\
    dist_list (after ws hs) = map (fun _ => t) (dist_list ws).
Proof. exact @pv_fill_ok. Qed.
Print Assumptions C112_assign_value.

(** After SubAvg(x) the elements of the distributed vector add up to zero. *)
Theorem C112_sub_avg_zero :
  forall (S : scalar), field_laws S -> forall (red : allreduce (S := S)) (ws : list (heap S * view)), sums red -> ws <> [] ->
  (forall h x, In (h, x) ws -> view_ok h x) -> of_int (zlen (dist_list ws)) <> @s0 S ->
  exists hs, par_sub_avg red (zlen (dist_list ws)) ws = Ok hs /\ sum_list (dist_list (after ws hs)) = s0.
Proof. exact @sub_avg_zero. Qed.
Print Assumptions C112_sub_avg_zero.

(** Normalize(x) does not normalise a ParVector: every rank divides its part by the norm of that part, so the
    square of the norm of the distributed vector becomes the number of ranks. *)
Theorem C112_normalize_refuted :
  forall (S : scalar), field_laws S -> eqb_laws S -> order_laws S -> sum_order_laws S -> prod_order_laws S ->
  forall (root : car S -> car S), root_laws root ->
  forall (ws : list (heap S * view)), (forall h x, In (h, x) ws -> view_ok h x /\ nonzero_vec (v_len x) (vat h x)) ->
  exists hs, normalize_all root ws = Ok hs /\
    Forall2 (fun '(h, x) h' => writes h x (fun i => sdiv (vat h x i) (root (inner (v_len x) (vat h x) (vat h x)))) h') ws hs /\
    dot (dist_list (after ws hs)) (dist_list (after ws hs)) = of_int (zlen ws).
Proof. exact @normalize_all_ok. Qed.
Print Assumptions C112_normalize_refuted.

(** It fails as soon as one rank has a part that is zero or empty, whatever the other ranks hold. *)
Theorem C112_normalize_zero_part_refuted :
  forall (S : scalar), field_laws S -> eqb_laws S -> order_laws S -> sum_order_laws S -> prod_order_laws S ->
  forall (root : car S -> car S), root_laws root ->
  forall (ws : list (heap S * view)), (forall h x, In (h, x) ws -> view_ok h x) ->
  (exists h x, In (h, x) ws /\ zero_vec (v_len x) (vat h x)) -> normalize_all root ws = Fail FAssert.
Proof. exact @normalize_all_zero. Qed.
Print Assumptions C112_normalize_zero_part_refuted.

(** Three ranks, one with an empty part, and two ranks over the reals. *)
Example C112_instance :
  let w (l m : list Z) : heap Zs * view * view := ([Some (@Block Zs l (zlen l)); Some (@Block Zs m (zlen m))], View 0 0 (zlen l), View 1 0 (zlen m)) in
  let ws := [w [1; 2] [5; 6]; w [] []; w [3] [7]] in
  let v (l : list R) : heap Rs * view := ([Some (@Block Rs l (zlen l))], View 0 0 (zlen l)) in
  (ring_laws Zs /\ sums (@left_sum Zs) /\ same_layout ws /\ (forall h x y, In (h, x, y) ws -> ~ reads_behind x y) /\
   inner_product_of Dist left_sum ws = Ok [38; 38; 38] /\ inner_product_of Plain left_sum ws = Ok [17; 0; 21] /\
   par_mult_of Plain left_sum ws = Ok [38; 38; 38] /\ par_mult_of Dist left_sum ws = Ok [114; 114; 114] /\
   exists hs, pv_add ws = Ok hs /\ dist_list (after (vec_x ws) hs) = [6; 8; 10]) /\
  (field_laws Rs /\ eqb_laws Rs /\ order_laws Rs /\ sum_order_laws Rs /\ prod_order_laws Rs /\ root_laws (S := Rs) sqrt /\
   (forall h x, In (h, x) [v [3%R; 4%R]; v [1%R]] -> view_ok h x /\ nonzero_vec (v_len x) (vat h x))).
Proof.
  assert (G : forall l m : list Z, view_ok (S := Zs) [Some (@Block Zs l (zlen l)); Some (@Block Zs m (zlen m))] (View 0 0 (zlen l)) /\
     view_ok (S := Zs) [Some (@Block Zs l (zlen l)); Some (@Block Zs m (zlen m))] (View 1 0 (zlen m))).
  { intros l m. split; (split; [apply zlen_nonneg|]); right; eexists; (split; [reflexivity|]); cbn [v_off v_len b_cells].
    - change (0 <= 0 /\ 0 + zlen l <= zlen l). lia.
    - change (0 <= 0 /\ 0 + zlen m <= zlen m). lia. }
  assert (V : forall l : list R, view_ok (S := Rs) [Some (@Block Rs l (zlen l))] (View 0 0 (zlen l))).
  { intros l. split; [apply zlen_nonneg|]. right. eexists. split; [reflexivity|]. cbn [v_off v_len b_cells]. change (0 <= 0 /\ 0 + zlen l <= zlen l). lia. }
  split.
  - split; [exact Zs_ring|]. split; [exact left_sum_ok|]. split; [|split; [|split; [vm_compute; reflexivity|split; [vm_compute; reflexivity|split; [vm_compute; reflexivity|split; [vm_compute; reflexivity|]]]]]].
    + intros h x y [Q|[Q|[Q|[]]]]; injection Q as <- <- <-; (split; [apply G|split; [apply G|reflexivity]]).
    + intros h x y [Q|[Q|[Q|[]]]]; injection Q as <- <- <-; intros (K & _); discriminate K.
    + eexists. split; vm_compute; reflexivity.
  - split; [exact Rs_field|]. split; [exact Rs_eqb|]. split; [exact Rs_order|]. split; [exact Rs_sum_order|]. split; [exact Rs_prod_order|]. split; [exact Rs_root|].
    intros h x [Q|[Q|[]]]; injection Q as <- <-; (split; [apply V|]); exists 0; (split; [vm_compute; split; congruence|]); [change (3 <> 0)%R|change (1 <> 0)%R]; lra.
Qed.
