(** An insertion sort that meets the contract asked of std::list::sort, and LilMatrix
    examples. *)

From Coq Require Import ZArith List Lia Bool Permutation Sorting.Sorted.
From Verif Require Import Base Scalar Spec Dense Sparse Examples CooSpec Lil LilSpec.
Import ListNotations.
Open Scope Z_scope.

Fixpoint node_insert (n : Z * Z) (l : list (Z * Z)) : list (Z * Z) :=
  match l with
  | [] => [n]
  | m :: l' => if @node_lt Zs m n then m :: node_insert n l' else n :: l
  end.
Definition node_sort (l : list (Z * Z)) : list (Z * Z) := fold_right node_insert [] l.

Lemma node_insert_perm n l : Permutation (n :: l) (node_insert n l).
Proof.
  induction l as [|m l IH]; cbn; [reflexivity|]. destruct (@node_lt Zs m n); [|reflexivity].
  rewrite perm_swap. now constructor.
Qed.

Definition node_le (a b : Z * Z) : Prop := @node_lt Zs b a = false.
Lemma node_le_iff a b : node_le a b <-> fst a < fst b \/ (fst a = fst b /\ snd a <= snd b).
Proof.
  unfold node_le, node_lt. cbn. destruct (Z.ltb_spec (fst b) (fst a)), (Z.ltb_spec (fst a) (fst b)), (Z.ltb_spec (snd b) (snd a)); cbn; split; intros; try discriminate; try lia; reflexivity.
Qed.

Lemma node_insert_sorted n l : StronglySorted node_le l -> StronglySorted node_le (node_insert n l).
Proof.
  induction 1 as [|m l H IH F]; cbn; [repeat constructor|]. destruct (@node_lt Zs m n) eqn:E.
  - constructor; [exact IH|]. apply Forall_forall. intros p Hp. apply (Permutation_in _ (Permutation_sym (node_insert_perm n l))) in Hp.
    destruct Hp as [<-|Hp]; [|rewrite Forall_forall in F; now apply F].
    destruct (@node_lt Zs n m) eqn:E2; [|exact E2]. exfalso.
    assert (~ node_le m n) by (unfold node_le; rewrite E2; discriminate). assert (~ node_le n m) by (unfold node_le; rewrite E; discriminate).
    rewrite node_le_iff in *. lia.
  - constructor; [now constructor|]. change (node_le n m) in E. constructor; [exact E|]. eapply Forall_impl; [|exact F]. cbn. intros p Hp.
    rewrite node_le_iff in *. lia.
Qed.

Lemma node_sort_ok : @list_sorts Zs node_sort.
Proof.
  intros l _. induction l as [|n l (IH1 & IH2)]; [split; constructor|]. split.
  - cbn [node_sort fold_right]. rewrite <- node_insert_perm. now constructor.
  - cbn [node_sort fold_right]. now apply node_insert_sorted.
Qed.

Definition exLOps : list (lil_op Zs) :=
  [ @LAdd Zs 1 2 5; @LAddSym Zs 2 0 7; @LToSparse Zs; @LAddDense Zs [0; 2] [1; 0] (@Dense Zs 2 2 [1; 2; 3; 4]); @LAddSym Zs 1 1 3; @LAdd Zs 2 0 (-1) ].

Definition exLil : lil Zs := @Lil Zs 2 3 true [[(1, 5); (0, 2); (1, -2)]; [(2, 4); (0, 6)]].
Definition exLilSq : lil Zs := @Lil Zs 2 2 true [[(1, 5); (0, 0); (1, -2)]; [(1, 4)]].
Example exLil_ok : lil_ok exLil.
Proof.
  split; [split|split; reflexivity]; [|intros _; split; [discriminate|split; [discriminate|split; [discriminate|]]]];
    repeat (constructor; [repeat (constructor; [solve_small|]); try constructor|]); constructor.
Qed.
Example exLilSq_ok : lil_ok exLilSq.
Proof.
  split; [split|split; reflexivity]; [|intros _; split; [discriminate|split; [discriminate|split; [discriminate|]]]];
    repeat (constructor; [repeat (constructor; [solve_small|]); try constructor|]); constructor.
Qed.
