(** C94: the products of a distributed matrix with distributed vectors. *)

From Coq Require Import ZArith List Bool Lia.
From Verif Require Import Base Scalar Spec Dense Sparse Examples Par ParSpec ParProofs ParExamples HypreTransposeSpec PropHypre2 ParMatvec ParMatvecSpec ParMatvecProofs.
Import ListNotations.
Open Scope Z_scope.

(** Mult(ParVector, ParVector): every rank ends with its rows of the product of the global matrix and
    the global vector, whatever the output held before. *)
Theorem C94_mult :
  forall (S : scalar) (H : hypre S), multiplies H ->
  forall (M N : Z) (As : list (parmat S)) (ins outs : list (hvec S)) (X : vect S), distributed M N As -> tiles pm_cs N As ->
  laid pm_cs As ins -> holds pm_cs As (map hv_data ins) X -> laid pm_rs As outs -> fits pm_rs As (map hv_data outs) ->
  exists ys, par_matvec H As ins outs = Ok ys /\ laid pm_rs As ys /\ holds pm_rs As (map hv_data ys) (mat_vec (world_mat As) N X).
Proof. intros S H MU M N As ins outs X. now apply par_matvec_value. Qed.
Print Assumptions C94_mult.

(** MultAT(ParVector, ParVector): the product with the transpose. *)
Theorem C94_multAT :
  forall (S : scalar) (H : hypre S), multiplies H ->
  forall (M N : Z) (As : list (parmat S)) (ins outs : list (hvec S)) (X : vect S), distributed M N As -> tiles pm_rs M As ->
  laid pm_rs As ins -> holds pm_rs As (map hv_data ins) X -> laid pm_cs As outs -> fits pm_cs As (map hv_data outs) ->
  exists ys, par_matvecT H As ins outs = Ok ys /\ laid pm_cs As ys /\ holds pm_cs As (map hv_data ys) (mat_vec (mat_T (world_mat As)) M X).
Proof. intros S H MU M N As ins outs X. now apply par_matvecT_value. Qed.
Print Assumptions C94_multAT.

(** An input or output with the wrong local or global size on some rank is refused. *)
Theorem C94_refuses :
  forall (S : scalar) (H : hypre S) (As : list (parmat S)) (ins outs : list (hvec S)),
  zlen ins = zlen As -> zlen outs = zlen As ->
  (forall r x, get ins r = Ok x -> zlen (hv_part x) = 3) -> (forall r y, get outs r = Ok y -> zlen (hv_part y) = 3) ->
  ((exists r A x y, get As r = Ok A /\ get ins r = Ok x /\ get outs r = Ok y /\
    (zlen (hv_data x) <> pm_cols A \/ zlen (hv_data y) <> pm_rows A \/ zn 0 (hv_part x) 2 <> pm_gcols A \/ zn 0 (hv_part y) 2 <> pm_grows A)) ->
   par_matvec H As ins outs = Fail FAssert) /\
  ((exists r A x y, get As r = Ok A /\ get ins r = Ok x /\ get outs r = Ok y /\
    (zlen (hv_data x) <> pm_rows A \/ zlen (hv_data y) <> pm_cols A \/ zn 0 (hv_part x) 2 <> pm_grows A \/ zn 0 (hv_part y) 2 <> pm_gcols A)) ->
   par_matvecT H As ins outs = Fail FAssert).
Proof. intros S H As ins outs Li Lo Pi Po. split; [now apply par_matvec_refuses|now apply par_matvecT_refuses]. Qed.
Print Assumptions C94_refuses.

(** The overloads that create the output give the same when every rank starts before the end;
    missing: other layouts, see C94_alloc_refuted. *)
Theorem C94_alloc_partial :
  forall (S : scalar) (H : hypre S) (of_int : Z -> car S), multiplies H ->
  forall (M N : Z) (As : list (parmat S)) (ins : list (hvec S)) (X : vect S), distributed M N As ->
  (tiles pm_cs N As -> laid pm_cs As ins -> holds pm_cs As (map hv_data ins) X -> starts_inside pm_rs As ->
   exists ys, par_matvec_new H of_int As ins = Ok ys /\ laid pm_rs As ys /\ holds pm_rs As (map hv_data ys) (mat_vec (world_mat As) N X)) /\
  (tiles pm_rs M As -> laid pm_rs As ins -> holds pm_rs As (map hv_data ins) X -> starts_inside pm_cs As ->
   exists ys, par_matvecT_new H of_int As ins = Ok ys /\ laid pm_cs As ys /\ holds pm_cs As (map hv_data ys) (mat_vec (mat_T (world_mat As)) M X)).
Proof. intros S H of_int MU M N As ins X D. split; intros; [now apply (par_matvec_new_value H of_int M N)|now apply (par_matvecT_new_value H of_int M N)]. Qed.
Print Assumptions C94_alloc_partial.

(** They end in a failed assertion whenever the range of a rank starts at the global end, so for any
    rank without rows (columns) behind the last one. *)
Theorem C94_alloc_refuted :
  forall (S : scalar) (H : hypre S) (of_int : Z -> car S) (M N : Z) (As : list (parmat S)) (ins : list (hvec S)) (r : Z) (A : parmat S),
  distributed M N As -> get As r = Ok A ->
  (zn 0 (pm_rs A) 0 = zn 0 (pm_rs A) 2 -> par_matvec_new H of_int As ins = Fail FAssert) /\
  (zn 0 (pm_cs A) 0 = zn 0 (pm_cs A) 2 -> par_matvecT_new H of_int As ins = Fail FAssert).
Proof. intros S H of_int M N As ins r A D EA. split; intros E; [now apply (par_matvec_new_fails H of_int M N As ins r A)|now apply (par_matvecT_new_fails H of_int M N As ins r A)]. Qed.
Print Assumptions C94_alloc_refuted.

(** The overloads for VectorViews give the products when rows and columns are split alike;
    missing: other layouts, see C94_view_refuted. *)
Theorem C94_view_partial :
  forall (S : scalar) (H : hypre S), multiplies H ->
  forall (M N : Z) (As : list (parmat S)) (ins outs : list (list (car S))) (X : vect S), distributed M N As -> same_split As ->
  (tiles pm_cs N As -> holds pm_cs As ins X -> fits pm_rs As outs ->
   exists ys, view_mult H As ins outs = Ok ys /\ holds pm_rs As ys (mat_vec (world_mat As) N X)) /\
  (tiles pm_cs N As -> holds pm_cs As ins X ->
   exists ys, view_mult_new H As ins = Ok ys /\ holds pm_rs As ys (mat_vec (world_mat As) N X)) /\
  (tiles pm_rs M As -> holds pm_rs As ins X -> fits pm_cs As outs ->
   exists ys, view_multAT H As ins outs = Ok ys /\ holds pm_cs As ys (mat_vec (mat_T (world_mat As)) M X)) /\
  (tiles pm_rs M As -> holds pm_rs As ins X ->
   exists ys, view_multAT_new H As ins = Ok ys /\ holds pm_cs As ys (mat_vec (mat_T (world_mat As)) M X)).
Proof.
  intros S H MU M N As ins outs X D E. repeat split; intros;
    [now apply (view_mult_value H M N)|now apply (view_mult_new_value H M N)|now apply (view_multAT_value H M N)|now apply (view_multAT_new_value H M N)].
Qed.
Print Assumptions C94_view_partial.

(** Otherwise they hand hypre vectors with the partitions exchanged, and any vectors at all are what
    some correct product returns: the contract of hypre no longer decides the outcome. *)
Theorem C94_view_refuted :
  forall (S : scalar) (H : hypre S), multiplies H ->
  forall (M N : Z) (As : list (parmat S)) (ins outs Y : list (list (car S))) (r : Z) (A : parmat S),
  distributed M N As -> get As r = Ok A -> pm_rs A <> pm_cs A ->
  (fits pm_cs As ins -> fits pm_rs As outs -> fits pm_rs As Y -> exists H', multiplies H' /\ view_mult H' As ins outs = Ok Y) /\
  (fits pm_rs As ins -> fits pm_cs As outs -> fits pm_cs As Y -> exists H', multiplies H' /\ view_multAT H' As ins outs = Ok Y).
Proof. intros S H MU M N As ins outs Y r A D EA W. split; intros; [now apply (view_mult_any H M N As ins outs Y r A)|now apply (view_multAT_any H M N As ins outs Y r A)]. Qed.
Print Assumptions C94_view_refuted.

(** A 3 x 2 matrix on two ranks: [ 1 | 2 ], [ 0 | 3 ] and [ 4 | 5 ] *)
Definition exV0 : parmat Zs := ParMat [0; 2; 3] [0; 1; 2] (@CSR Zs 2 1 [0; 1; 1] [0] [1]) (@CSR Zs 2 1 [0; 1; 2] [0; 0] [2; 3]) [1].
Definition exV1 : parmat Zs := ParMat [2; 3; 3] [1; 2; 2] (@CSR Zs 1 1 [0; 1] [0] [5]) (@CSR Zs 1 1 [0; 1] [0] [4]) [0].
(** A 2 x 2 matrix whose second rank has no rows: [ 1 | 2 ], [ 0 | 3 ] *)
Definition exU0 : parmat Zs := ParMat [0; 2; 2] [0; 1; 2] (@CSR Zs 2 1 [0; 1; 1] [0] [1]) (@CSR Zs 2 1 [0; 1; 2] [0; 0] [2; 3]) [1].
Definition exU1 : parmat Zs := ParMat [2; 2; 2] [1; 2; 2] (@CSR Zs 0 1 [0] [] []) (@CSR Zs 0 0 [0] [] []) [].

Lemma exV_distributed : distributed 3 2 [exV0; exV1].
Proof.
  split.
  - intros r A E. two E; injection E as <-; (split; [apply pm_validb_ok; vm_compute; reflexivity|split; reflexivity]).
  - intros r q A B N E1 E2. two E1; two E2; try congruence; injection E1 as <-; injection E2 as <-; first [left; vm_compute; discriminate|right; vm_compute; discriminate].
  - intros r q A B N E1 E2. two E1; two E2; try congruence; injection E1 as <-; injection E2 as <-; first [left; vm_compute; discriminate|right; vm_compute; discriminate].
Qed.

Lemma exU_distributed : distributed 2 2 [exU0; exU1].
Proof.
  split.
  - intros r A E. two E; injection E as <-; (split; [apply pm_validb_ok; vm_compute; reflexivity|split; reflexivity]).
  - intros r q A B N E1 E2. two E1; two E2; try congruence; injection E1 as <-; injection E2 as <-; first [left; vm_compute; discriminate|right; vm_compute; discriminate].
  - intros r q A B N E1 E2. two E1; two E2; try congruence; injection E1 as <-; injection E2 as <-; first [left; vm_compute; discriminate|right; vm_compute; discriminate].
Qed.

Definition exX : vect Zs := fun j => 1 + j * j.

Example C94_instance :
  multiplies (@reference Zs) /\
  (distributed 3 2 [exV0; exV1] /\ tiles pm_cs 2 [exV0; exV1] /\ laid pm_cs [exV0; exV1] [@HVec Zs [0; 1; 2] [1]; @HVec Zs [1; 2; 2] [2]] /\
   holds pm_cs [exV0; exV1] [[1]; [2]] exX /\ starts_inside pm_rs [exV0; exV1] /\ pm_rs exV0 <> pm_cs exV0 /\
   laid pm_rs [exV0; exV1] [@HVec Zs [0; 2; 3] [7; 7]; @HVec Zs [2; 3; 3] [7]] /\ fits pm_rs [exV0; exV1] [[7; 7]; [7]] /\
   par_matvec reference [exV0; exV1] [@HVec Zs [0; 1; 2] [1]; @HVec Zs [1; 2; 2] [2]] [@HVec Zs [0; 2; 3] [7; 7]; @HVec Zs [2; 3; 3] [7]] =
     Ok [@HVec Zs [0; 2; 3] [5; 6]; @HVec Zs [2; 3; 3] [14]]) /\
  (distributed 2 2 [exU0; exU1] /\ zn 0 (pm_rs exU1) 0 = zn 0 (pm_rs exU1) 2) /\
  (distributed 4 4 [exP0; exP1] /\ same_split [exP0; exP1] /\ tiles pm_cs 4 [exP0; exP1] /\ holds pm_cs [exP0; exP1] [[1; 2]; [5; 10]] exX /\
   view_mult_new reference [exP0; exP1] [[1; 2]; [5; 10]] = Ok [[35; 8]; [35; 94]]).
Proof.
  split; [apply reference_ok|]. split; [|split].
  - split; [exact exV_distributed|]. split; [|split; [|split; [|split; [|split; [|split; [|split]]]]]].
    + intros i Hi. assert (i = 0 \/ i = 1) as [-> | ->] by lia; [exists 0, exV0|exists 1, exV1]; (split; [reflexivity|]); vm_compute; split; congruence.
    + split; [reflexivity|]. intros r A v EA Ev. two EA; injection EA as <-; injection Ev as <-; reflexivity.
    + split; [split; [reflexivity|]|].
      * intros r A v EA Ev. two EA; injection EA as <-; injection Ev as <-; reflexivity.
      * intros r A v i EA Ev Hi. two EA; injection EA as <-; injection Ev as <-; upto i; reflexivity.
    + intros r A EA. two EA; injection EA as <-; vm_compute; reflexivity.
    + intros E. discriminate E.
    + split; [reflexivity|]. intros r A v EA Ev. two EA; injection EA as <-; injection Ev as <-; reflexivity.
    + split; [reflexivity|]. intros r A v EA Ev. two EA; injection EA as <-; injection Ev as <-; reflexivity.
    + vm_compute. reflexivity.
  - split; [exact exU_distributed|reflexivity].
  - split; [exact exP_distributed|]. split; [|split; [|split]].
    + intros r A EA. two EA; injection EA as <-; reflexivity.
    + intros i Hi. assert (i = 0 \/ i = 1 \/ i = 2 \/ i = 3) as [-> |[-> |[-> | ->]]] by lia; [exists 0, exP0|exists 0, exP0|exists 1, exP1|exists 1, exP1];
        (split; [reflexivity|]); vm_compute; split; congruence.
    + split; [split; [reflexivity|]|].
      * intros r A v EA Ev. two EA; injection EA as <-; injection Ev as <-; reflexivity.
      * intros r A v i EA Ev Hi. two EA; injection EA as <-; injection Ev as <-; upto i; reflexivity.
    + vm_compute. reflexivity.
Qed.
