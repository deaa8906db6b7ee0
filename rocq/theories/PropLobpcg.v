(** C99: LOBPCG runs hypre's solver on the global matrix, from the caller's vectors, and hands the
    caller what it ends with. *)

From Coq Require Import ZArith List Bool Lia.
From Verif Require Import Base Scalar Spec Dense Sparse Par ParSpec ParExamples HypreTransposeSpec PropHypre2 ParMatvec ParMatvecSpec ParMatvecProofs Lobpcg LobpcgSpec LobpcgProofs.
Import ListNotations.
Open Scope Z_scope.

(** Whatever the solver does: the eigenvalues returned and the vectors left in x are those it ends
    with when every product it asks for is the product with the global matrix and every application of
    the preconditioner is that of the operator given; it starts from the caller's vectors (filled up
    with zeros where they are shorter than the rank's rows).  Proved for matrices whose rows and
    columns are split alike; missing: other layouts, see C94_view_refuted. *)
Theorem C99_runs_partial : forall (S : scalar) (hl : list (list (list (car S))) -> solver S) (H : hypre S) N (As : list (parmat S)) op m pre xs mv,
  multiplies H -> distributed N N As -> same_split As -> tiles pm_rs N As -> product_with As N op -> preconditions As m pre ->
  within As xs -> padded As xs mv -> polite As (zlen xs) (m <> None) (hl mv) ->
  exists ys, lobpcg hl (mat_op H As) m xs = Ok (fst (answer op pre (hl mv)), ys) /\ leading xs (snd (answer op pre (hl mv))) ys.
Proof. exact @lobpcg_value. Qed.
Print Assumptions C99_runs_partial.

(** The overload without start vectors: the same from vectors of random numbers, whatever they are. *)
Theorem C99_random_partial : forall (S : scalar) rnd (hl : list (list (list (car S))) -> solver S) (H : hypre S) N (As : list (parmat S)) op m pre n,
  multiplies H -> distributed N N As -> same_split As -> tiles pm_rs N As -> product_with As N op -> preconditions As m pre ->
  0 <= n -> exists mv, zlen mv = n /\
  (forall i, 0 <= i < n -> fits pm_rs As (zn [] mv i) /\ forall r k, 0 <= r < zlen As -> 0 <= k < zlen (zn [] (zn [] mv i) r) -> zn s0 (zn [] (zn [] mv i) r) k = rnd i r k) /\
  (polite As n (m <> None) (hl mv) -> lobpcg_random rnd hl (mat_op H As) m n = Ok (fst (answer op pre (hl mv)))).
Proof. exact @lobpcg_random_value. Qed.
Print Assumptions C99_random_partial.

(** A matrix with different numbers of local rows and columns on some rank is refused at the first
    product. *)
Theorem C99_refuses : forall (S : scalar) (hl : list (list (list (car S))) -> solver S) (H : hypre S) M N (As : list (parmat S)) m xs mv x y k r A,
  distributed M N As -> within As xs -> padded As xs mv -> hl mv = Matvec x y k -> fits pm_rs As x -> fits pm_rs As y ->
  get As r = Ok A -> pm_rows A <> pm_cols A -> lobpcg hl (mat_op H As) m xs = Fail FAssert.
Proof. exact @lobpcg_rectangular. Qed.
Print Assumptions C99_refuses.

(** A start vector with more elements than the rank has rows is not refused: it is copied over the end
    of hypre's vector. *)
Theorem C99_long_refuted : forall (S : scalar) (hl : list (list (list (car S))) -> solver S) (H : hypre S) M N (As : list (parmat S)) m xs i r x d A,
  distributed M N As -> (forall x, In x xs -> zlen x = zlen As) ->
  get xs i = Ok x -> get x r = Ok d -> get As r = Ok A -> pm_rows A < zlen d -> lobpcg hl (mat_op H As) m xs = Fail FUB.
Proof. exact @lobpcg_long. Qed.
Print Assumptions C99_long_refuted.

(** The caller cannot tell whether the solver converged: the status makes no difference. *)
Theorem C99_status_refuted : forall (S : scalar) (hl : list (list (list (car S))) -> solver S) (P : parop S) m xs s,
  lobpcg (fun mv => with_status s (hl mv)) P m xs = lobpcg hl P m xs.
Proof. exact @lobpcg_status. Qed.
Print Assumptions C99_status_refuted.

(** One step of a power iteration with a preconditioner that changes the signs, on
    [ 1 2 | 0 3 ]
    [ 0 4 | 0 0 ]
    [ 5 0 | 6 0 ]
    [ 0 7 | 0 8 ]; rank 1 hands in one element only. *)
Definition exSolver (mv : list (list (list Z))) : solver Zs :=
  match mv with
  | [x] => @Matvec Zs x [[0; 0]; [0; 0]] (fun y => @Precond Zs y [[0; 0]; [0; 0]] (fun z => @Finished Zs [zn 0 (zn [] z 0) 0] [z] 0))
  | _ => @Finished Zs [] [] 1
  end.
Definition exOp (ins : list (list Z)) : list (list Z) := match view_mult_new (@reference Zs) [exP0; exP1] ins with Ok z => z | Fail _ => [] end.
Definition exPre (b : list (list Z)) : list (list Z) := map (map Z.opp) b.

Lemma exP_split : same_split [exP0; exP1].
Proof. intros r A EA. two EA; injection EA as <-; reflexivity. Qed.

Lemma exP_tiles : tiles pm_rs 4 [exP0; exP1].
Proof.
  intros i Hi. assert (i = 0 \/ i = 1 \/ i = 2 \/ i = 3) as [-> |[-> |[-> | ->]]] by lia; [exists 0, exP0|exists 0, exP0|exists 1, exP1|exists 1, exP1];
    (split; [reflexivity|]); vm_compute; split; congruence.
Qed.

Lemma exP_fits (a b c d : Z) : fits pm_rs [exP0; exP1] [[a; b]; [c; d]].
Proof. split; [reflexivity|]. intros r A v EA Ev. two EA; injection EA as <-; injection Ev as <-; reflexivity. Qed.

Example C99_instance :
  multiplies (@reference Zs) /\ distributed 4 4 [exP0; exP1] /\ same_split [exP0; exP1] /\ tiles pm_rs 4 [exP0; exP1] /\ product_with [exP0; exP1] 4 exOp /\
  preconditions [exP0; exP1] (Some (fun b _ => Ok (exPre b))) exPre /\ within [exP0; exP1] [[[1; 2]; [5]]] /\
  padded [exP0; exP1] [[[1; 2]; [5]]] [[[1; 2]; [5; 0]]] /\
  polite [exP0; exP1] 1 (Some (fun b _ : list (list Z) => Ok (exPre b)) <> None) (exSolver [[[1; 2]; [5; 0]]]) /\
  lobpcg (S := Zs) exSolver (mat_op reference [exP0; exP1]) (Some (fun b _ => Ok (exPre b))) [[[1; 2]; [5]]] = Ok ([-5], [[[-5; -8]; [-35]]]) /\
  lobpcg (S := Zs) exSolver (mat_op reference [exP0; exP1]) None [[[1; 2]; [5; 6; 7]]] = Fail FUB.
Proof.
  assert (FP : forall b : list (list Z), fits pm_rs [exP0; exP1] b -> fits pm_rs [exP0; exP1] (exPre b)).
  { intros b (L & F). split; [unfold exPre; now rewrite zlen_map|]. intros r A v EA Ev. unfold exPre in Ev.
    destruct (get b r) as [w|] eqn:Ew; [|rewrite LifeProofs.get_map, Ew in Ev; discriminate]. rewrite LifeProofs.get_map, Ew in Ev. cbn [bind] in Ev. injection Ev as <-.
    rewrite zlen_map. exact (F r A w EA Ew). }
  refine (conj reference_ok (conj exP_distributed (conj exP_split (conj exP_tiles (conj _ (conj _ (conj _ (conj _ (conj _ (conj _ _)))))))))).
  - intros ins X HX. unfold exOp.
    destruct (view_mult_new_value reference 4 4 [exP0; exP1] ins X reference_ok exP_distributed (same_split_tiles _ _ exP_split exP_tiles) exP_split (same_split_holds _ _ _ exP_split HX)) as (z & -> & Hz).
    exact Hz.
  - intros b x Fb Fx. split; [reflexivity|]. now apply FP.
  - intros x [<-|[]]. split; [reflexivity|]. intros r A d EA Ed. two EA; injection EA as <-; injection Ed as <-; vm_compute; discriminate.
  - split; [reflexivity|]. split; [intros v [<-|[]]; apply exP_fits|]. intros i r k Hi Hr Hk. upto i. upto r; upto k; reflexivity.
  - cbn [exSolver polite]. split; [apply exP_fits|]. split; [apply exP_fits|]. intros z Fz. split; [discriminate|]. split; [exact Fz|]. split; [apply exP_fits|].
    intros w Fw. split; [reflexivity|]. split; [reflexivity|]. intros v [<-|[]]. exact Fw.
  - vm_compute. reflexivity.
  - vm_compute. reflexivity.
Qed.
