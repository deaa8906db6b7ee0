(** Proofs about the life of parallel objects: every hypre object is held by exactly one object. *)

From Coq Require Import ZArith List Bool Lia Permutation.
From Verif Require Import Base Scalar Spec Dense Sparse LoopFacts CsrFacts Par ParSpec ParProofs HypreNorms ParLife ParLifeSpec.
Import ListNotations.
Open Scope Z_scope.

(* ---------------------------------------------------------------- rearranging *)

Ltac perm_front a R :=
  lazymatch R with
  | a ++ _ => constr:(Permutation_refl R)
  | ?x ++ ?R' => let P := perm_front a R' in
      lazymatch type of P with Permutation _ (a ++ ?R'') => constr:(perm_trans (Permutation_app_head x P) (Permutation_app_swap_app x a R'')) end
  end.

Ltac perm_solve_step :=
  lazymatch goal with
  | |- Permutation ?L ?L => apply Permutation_refl
  | |- Permutation (?a ++ ?L) ?R => let P := perm_front a R in
      refine (Permutation_trans _ (Permutation_sym P)); apply Permutation_app_head
  end.

Ltac perm := rewrite <- ?app_assoc; rewrite <- ?app_comm_cons; 
  repeat match goal with |- context [?x :: ?l] => lazymatch l with nil => fail | ?y => change (x :: y) with ([x] ++ y) end end;
  rewrite <- ?app_assoc; rewrite ?app_nil_l;
  match goal with |- Permutation ?L ?R => rewrite <- (app_nil_r L), <- (app_nil_r R); rewrite <- ?app_assoc end; rewrite ?app_nil_l;
  repeat perm_solve_step.


(* ---------------------------------------------------------------- the heap *)

Section Life.
Context {S : scalar}.
Notation T := (car S).
Notation csr := (csr S).
Notation parmat := (parmat S).
Notation hobj := (hobj (S := S)).
Notation heap := (heap (S := S)).
Notation matobj := (matobj (S := S)).
Notation vecobj := (vecobj (S := S)).
Notation solobj := (solobj (S := S)).
Notation obj := (obj (S := S)).

(** The hypre objects that have not been released *)
Definition live (os : list (option hobj)) : list (Z * hobj) :=
  flat_map (fun i => match zn None os i with Some o => [(i, o)] | None => [] end) (zrange 0 (zlen os)).

Lemma live_new os (o : hobj) : live (os ++ [Some o]) = live os ++ [(zlen os, o)].
Proof.
  unfold live. pose proof (zlen_nonneg os). rewrite zlen_app. change (zlen [Some o]) with 1. rewrite zrange_snoc by lia. rewrite flat_map_app. cbn [flat_map]. replace (zlen os + 1 - 1) with (zlen os) by lia. f_equal.
  - apply flat_map_ext_in. intros i Hi. apply In_zrange in Hi. now rewrite zn_app_l by lia.
  - rewrite zn_app_r by lia. replace (zlen os - zlen os) with 0 by lia. reflexivity.
Qed.

Lemma In_live os id (o : hobj) : In (id, o) (live os) <-> get os id = Ok (Some o).
Proof.
  unfold live. rewrite in_flat_map. split.
  - intros (i & Hi & H). apply In_zrange in Hi. destruct (zn None os i) as [x|] eqn:E; [|contradiction]. destruct H as [H|[]]. injection H as -> ->. rewrite (get_ok None) by lia. now rewrite E.
  - intros H. apply (get_Ok_inv None) in H. destruct H as (Hi & E). exists id. split; [apply In_zrange; lia|]. rewrite <- E. now left.
Qed.

Lemma live_NoDup os : NoDup (map fst (live os)).
Proof.
  unfold live. generalize (NoDup_zrange 0 (zlen os)). induction (zrange 0 (zlen os)) as [|i l IH]; intros N; cbn [flat_map map]; [constructor|]. inversion_clear N as [|? ? Ni Nl]. rewrite map_app.
  destruct (zn None os i) as [x|]; cbn [map app fst]; [|now apply IH]. constructor; [|now apply IH]. intros I. apply in_map_iff in I. destruct I as ((j, y) & E & I). apply in_flat_map in I. destruct I as (k & Ik & I). cbn in E. subst j.
  destruct (zn None os k); [|contradiction]. destruct I as [I|[]]. injection I as -> _. contradiction.
Qed.


Lemma get_upd {A} (d : A) (l : list A) (i j : Z) (a x : A) : 0 <= i < zlen l -> (get (upd l (Z.to_nat i) a) j = Ok x <-> (j = i /\ x = a) \/ (j <> i /\ get l j = Ok x)).
Proof.
  intros Hi. split.
  - intros H. apply (get_Ok_inv d) in H. destruct H as (Hj & ->). rewrite zlen_upd in Hj. rewrite zn_upd by lia. destruct (Z.eqb_spec j i) as [->|N].
    + left. now rewrite ?Z.eqb_refl.
    + right. split; [assumption|]. rewrite (get_ok d) by lia. destruct (Z.eqb_spec i j); [lia|reflexivity].
  - intros [(-> & ->)|(N & H)].
    + rewrite (get_ok d) by (rewrite ?zlen_upd; lia). rewrite zn_upd by lia. now rewrite Z.eqb_refl.
    + apply (get_Ok_inv d) in H. destruct H as (Hj & ->). rewrite (get_ok d) by (rewrite ?zlen_upd; lia). rewrite zn_upd by lia. destruct (Z.eqb_spec i j), (Z.eqb_spec j i); try lia; reflexivity.
Qed.

Lemma live_upd os id (o : hobj) v R : Permutation (live os) ((id, o) :: R) ->
  Permutation (live (upd os (Z.to_nat id) v)) (match v with Some x => (id, x) :: R | None => R end).
Proof.
  intros P. assert (N : NoDup (map fst ((id, o) :: R))).
  { eapply Permutation_NoDup; [apply Permutation_map; exact P|apply live_NoDup]. }
  inversion_clear N as [|? ? Nid NR]. cbn [fst] in Nid. assert (N' : NoDup R) by (eapply NoDup_map_inv; exact NR).
  assert (G : get os id = Ok (Some o)).
  { apply In_live. eapply Permutation_in; [apply Permutation_sym; exact P|now left]. }
  apply (get_Ok_inv None) in G. destruct G as (Hid & Eid).
  apply NoDup_Permutation.
  - eapply NoDup_map_inv. apply live_NoDup.
  - destruct v; [|assumption]. constructor; [|assumption]. intros I. apply Nid. now apply (in_map fst) in I.
  - intros (j, x). rewrite In_live. rewrite (get_upd None) by assumption. rewrite <- In_live.
    assert (Q : In (j, x) (live os) <-> (j = id /\ x = o) \/ In (j, x) R).
    { split.
      - intros I. apply (Permutation_in _ P) in I. destruct I as [I|I]; [left; injection I as -> ->; now split|now right].
      - intros [(-> & ->)|I]; apply (Permutation_in _ (Permutation_sym P)); [now left|now right]. }
    rewrite Q. assert (Rid : In (j, x) R -> j <> id) by (intros I ->; apply Nid; now apply (in_map fst) in I).
    destruct v as [y|].
    + split.
      * intros [(-> & E)|(N & [(E & _)|I])]; [injection E as ->; now left|contradiction|now right].
      * intros [E|I]; [injection E as -> ->; left; now split|right; split; [now apply Rid|now right]].
    + split.
      * intros [(_ & E)|(N & [(E & _)|I])]; [discriminate|contradiction|assumption].
      * intros I. right. split; [now apply Rid|now right].
Qed.

(** The hypre objects alive in h are those of R *)
Definition holds (h : heap) (R : list (Z * hobj)) : Prop := Permutation (live (h_objs h)) R.

Lemma holds_perm h R R' : holds h R -> Permutation R R' -> holds h R'.
Proof. apply Permutation_trans. Qed.

Lemma holds_new h R o : holds h R -> holds (snd (new_obj o h)) ((zlen (h_objs h), o) :: R).
Proof.
  intros H. unfold holds, new_obj. cbn [snd h_objs]. rewrite live_new. apply Permutation_sym. eapply perm_trans; [|apply Permutation_cons_append]. apply perm_skip. now apply Permutation_sym.
Qed.

Lemma holds_store {A} h R (a : A) : holds h R -> holds (snd (store a h)) R.
Proof. trivial. Qed.

Lemma holds_deref h R id o : holds h R -> In (id, o) R -> deref h (Live id) = Ok o.
Proof.
  intros H I. apply (Permutation_in _ (Permutation_sym H)) in I. apply In_live in I. cbn [deref]. now rewrite I.
Qed.

Lemma holds_range h id o R : holds h ((id, o) :: R) -> 0 <= id < zlen (h_objs h).
Proof.
  intros H. assert (I : In (id, o) (live (h_objs h))) by (apply (Permutation_in _ (Permutation_sym H)); now left). apply In_live in I. now apply (get_Ok_inv None) in I.
Qed.

Lemma holds_release is h id o R : holds h ((id, o) :: R) -> is o = true -> exists h', release is h (Live id) = Ok h' /\ holds h' R.
Proof.
  intros H I. unfold release. rewrite (holds_deref h _ id o H) by now left. cbn [bind]. rewrite I. rewrite set_ok by (eapply holds_range; exact H). cbn [bind]. eexists. split; [reflexivity|]. exact (live_upd _ _ _ None _ H).
Qed.

Lemma fn_eqb_refl f : fn_eqb f f = true.
Proof. now destruct f. Qed.

Lemma holds_update f g h id t R : holds h ((id, HSolver t) :: R) -> hs_kind t = f ->
  exists h', update f g (Live id) h = Ok h' /\ holds h' ((id, HSolver (g t)) :: R).
Proof.
  intros H E. unfold update. rewrite (holds_deref h _ id _ H) by now left. cbn [bind]. rewrite E, fn_eqb_refl. rewrite set_ok by (eapply holds_range; exact H). cbn [bind]. eexists. split; [reflexivity|]. exact (live_upd _ _ _ (Some _) _ H).
Qed.

(* ---------------------------------------------------------------- ownership *)

Definition starts_ok (l : list Z) (n : Z) : Prop := 3 <= zlen l /\ n = zn 0 l 1 - zn 0 l 0 /\ 0 <= n.

Definition op_owns (o : opobj) (l : list (Z * hobj)) : Prop :=
  (op_comm o = false /\ op_x o = Null /\ op_b o = Null /\ l = []) \/
  (op_comm o = true /\ starts_ok (b_val (op_rs o)) (op_rows o) /\ starts_ok (b_val (op_cs o)) (op_cols o) /\
   exists a b, op_x o = Live a /\ op_b o = Live b /\ l = [(b, HVector (b_id (op_cs o)) None); (a, HVector (b_id (op_rs o)) None)]).

Definition mat_owns (m : matobj) (l : list (Z * hobj)) : Prop :=
  exists lo, op_owns (mo_op m) lo /\
  ((mo_A m = Null /\ op_comm (mo_op m) = false /\ l = lo) \/
   (exists a, mo_A m = Live a /\ op_comm (mo_op m) = true /\ l = (a, mo_view m) :: lo)).

Definition vec_owns (v : vecobj) (l : list (Z * hobj)) : Prop :=
  (vo_p v = Null /\ l = []) \/
  (exists a n, vo_p v = Live a /\ vo_comm v = true /\ vo_gsize v = Some n /\ l = [(a, HVector (b_id (vo_part v)) (Some (b_id (vo_data v))))]).

Definition family (s : solobj) : fn * fn * fn * fn := (so_create s, so_destroy s, so_setup s, so_solve s).

(** The hypre solver of a solver object *)
Definition handle_owns (c : class) (s : solobj) (l : list (Z * hobj)) : Prop :=
  (so_solver s = Null /\ l = [] /\ (family s = (FnNone, FnNone, FnNone, FnNone) \/ family s = (FnNone, FnNone, FnDiag, FnDiag) /\ mo_A (so_A s) <> Null)) \/
  (exists a t, so_solver s = Live a /\ l = [(a, HSolver t)] /\ mo_A (so_A s) <> Null /\
   (hs_kind t = FnAMG /\ family s = (FnAMG, FnAMG, FnAMG, FnAMG) \/
    hs_kind t = FnPCG /\ family s = (FnPCG, FnPCG, FnPCG, FnPCG) \/
    hs_kind t = FnSails /\ family s = (FnNone, FnSails, FnSails, FnSails) /\ c = Sails)).

Definition shell_owns (s : solobj) (l : list (Z * hobj)) : Prop :=
  (sm_shell (so_smooth s) = Null /\ l = []) \/
  (exists a, sm_shell (so_smooth s) = Live a /\ op_comm (so_op s) = true /\ l = [(a, HVector (b_id (op_rs (so_op s))) None)]).

Definition sol_owns (c : class) (s : solobj) (l : list (Z * hobj)) : Prop :=
  exists lo la ls lb, op_owns (so_op s) lo /\ mat_owns (so_A s) la /\ handle_owns c s ls /\ shell_owns s lb /\ l = lb ++ ls ++ la ++ lo.

Definition owns (o : option obj) (l : list (Z * hobj)) : Prop :=
  match o with
  | None => l = []
  | Some (OMat m) => mat_owns m l
  | Some (OVec v) => vec_owns v l
  | Some (OSol c s) => sol_owns c s l
  end.

(* ---------------------------------------------------------------- operators *)

Lemma holds_destroy_vector h p d (a : Z) R : p = Live a -> forall q, holds h ((a, HVector q d) :: R) -> exists h', destroy_vector p h = Ok h' /\ holds h' R.
Proof. intros -> q H. unfold destroy_vector. exact (holds_release is_vector h a _ R H eq_refl). Qed.

Lemma op_destroy_ok o l h R : op_owns o l -> holds h (l ++ R) -> exists h', op_destroy o h = Ok h' /\ holds h' R.
Proof.
  intros O H. unfold op_destroy. destruct O as [(_ & -> & -> & ->)|(_ & _ & _ & a & b & Ea & Eb & ->)].
  - exists h. now split.
  - cbn [app] in H. assert (H' : holds h ((a, HVector (b_id (op_rs o)) None) :: (b, HVector (b_id (op_cs o)) None) :: R)) by (eapply holds_perm; [exact H|apply perm_swap]).
    destruct (holds_destroy_vector h (op_x o) None a _ Ea _ H') as (h1 & -> & H1). cbn [bind].
    exact (holds_destroy_vector h1 (op_b o) None b _ Eb _ H1).
Qed.

Lemma init_vector_ok st h R : 3 <= zlen (b_val st) -> holds h R ->
  exists a h', init_vector st h = Ok (Live a, h') /\ holds h' ((a, HVector (b_id st) None) :: R).
Proof.
  intros L H. unfold init_vector. destruct (Z.leb_spec 3 (zlen (b_val st))); [|lia]. cbn [assert_ bind]. eexists _, _. split; [reflexivity|]. exact (holds_new h R _ H).
Qed.

Lemma op_create_ok o h R : op_comm o = true -> starts_ok (b_val (op_rs o)) (op_rows o) -> starts_ok (b_val (op_cs o)) (op_cols o) -> holds h R ->
  exists o' h' l, op_create o h = Ok (o', h') /\ op_owns o' l /\ holds h' (l ++ R) /\
    op_comm o' = true /\ op_rows o' = op_rows o /\ op_cols o' = op_cols o /\ op_rs o' = op_rs o /\ op_cs o' = op_cs o.
Proof.
  intros C (Lr & Er & Pr) (Lc & Ec & Pc) H. unfold op_create.
  destruct (init_vector_ok (op_rs o) h R Lr H) as (a & h1 & -> & H1). cbn [bind].
  destruct (init_vector_ok (op_cs o) h1 _ Lc H1) as (b & h2 & -> & H2). cbn [bind].
  eexists _, _, _. split; [reflexivity|]. split; [|split; [|cbn; repeat split; assumption]].
  - right. cbn. split; [assumption|]. split; [now repeat split|]. split; [now repeat split|]. exists a, b. repeat split.
  - exact H2.
Qed.

Lemma op_make_ok rs cs h R : 3 <= zlen rs -> 3 <= zlen cs -> 0 <= zn 0 rs 1 - zn 0 rs 0 -> 0 <= zn 0 cs 1 - zn 0 cs 0 -> holds h R ->
  exists o h' l, op_make rs cs h = Ok (o, h') /\ op_owns o l /\ holds h' (l ++ R) /\
    op_comm o = true /\ b_val (op_rs o) = rs /\ b_val (op_cs o) = cs /\ op_rows o = zn 0 rs 1 - zn 0 rs 0 /\ op_cols o = zn 0 cs 1 - zn 0 cs 0.
Proof.
  intros Lr Lc Pr Pc H. unfold op_make. rewrite !(get_ok 0) by lia. cbn [bind].
  destruct (Z.leb_spec 0 (zn 0 rs 1 - zn 0 rs 0)); [|lia]. destruct (Z.leb_spec 0 (zn 0 cs 1 - zn 0 cs 0)); [|lia]. cbn [assert_ bind store].
  destruct (Z.leb_spec 3 (zlen rs)); [|lia]. destruct (Z.leb_spec 3 (zlen cs)); [|lia]. cbn [assert_ bind].
  match goal with |- context [op_create ?o ?h0] => destruct (op_create_ok o h0 R eq_refl) as (o' & h' & l & E & O & H' & C & Er & Ec & Ers & Ecs) end; cbn; try now repeat split.
  exists o', h', l. rewrite Ers, Ecs, Er, Ec. cbn. now repeat split.
Qed.

Lemma op_copy_ok o l h R : op_owns o l -> holds h R ->
  exists o' h' l', op_copy o h = Ok (o', h') /\ op_owns o' l' /\ holds h' (l' ++ R) /\
    op_comm o' = op_comm o /\ b_val (op_rs o') = b_val (op_rs o) /\ b_val (op_cs o') = b_val (op_cs o) /\ op_rows o' = op_rows o /\ op_cols o' = op_cols o.
Proof.
  intros O H. unfold op_copy. cbn [store]. destruct O as [(C & _)|(C & Sr & Sc & _)]; rewrite C.
  - eexists _, _, []. split; [reflexivity|]. split; [left; now repeat split|]. now repeat split.
  - match goal with |- context [op_create ?o ?h0] => destruct (op_create_ok o h0 R eq_refl) as (o' & h' & l' & E & O & H' & C' & Er & Ec & Ers & Ecs) end; try assumption.
    exists o', h', l'. rewrite Ers, Ecs, Er, Ec. now repeat split.
Qed.

Lemma op_swap_eq l r : op_swap l r = (r, l).
Proof. now destruct l, r. Qed.

(* ---------------------------------------------------------------- matrices *)

Lemma mat_destroy_ok m l h R : mat_owns m l -> holds h (l ++ R) -> exists h', mat_destroy m h = Ok h' /\ holds h' R.
Proof.
  intros (lo & O & [(EA & _ & ->)|(a & EA & _ & ->)]) H; unfold mat_destroy; rewrite EA.
  - cbn [bind]. exact (op_destroy_ok _ _ _ _ O H).
  - destruct (holds_release is_matrix h a _ (lo ++ R) H eq_refl) as (h' & -> & H'). cbn [bind]. exact (op_destroy_ok _ _ _ _ O H').
Qed.

Lemma mat_default_ok h R : holds h R -> holds (snd (mat_default h)) R /\ mat_owns (fst (mat_default h)) [].
Proof.
  intros H. split; [exact H|]. exists []. split; [left; now repeat split|]. left. now repeat split.
Qed.

Lemma mat_create_ok reorder m lo h R : op_owns (mo_op m) lo -> op_comm (mo_op m) = true -> holds h R ->
  let '(m', h') := mat_create reorder m h in
  exists l, mat_owns m' (l ++ lo) /\ holds h' (l ++ R) /\ mo_A m' <> Null /\ mo_op m' = mo_op m /\
    mo_val m' = ParMat (b_val (op_rs (mo_op m))) (b_val (op_cs (mo_op m))) (reorder (b_val (mo_diag m))) (b_val (mo_offd m)) (b_val (mo_map m)).
Proof.
  intros O C H. unfold mat_create, new_obj. eexists [(_, _)]. split; [|split; [|split; [discriminate|split; reflexivity]]].
  - exists lo. split; [exact O|]. right. eexists. repeat split. exact C.
  - exact (holds_new h R _ H).
Qed.

Lemma pm_make_starts (f : csr -> csr) rs cs D O cm A : pm_make f rs cs D O cm = Ok A ->
  zlen rs = 3 /\ zlen cs = 3 /\ 0 <= zn 0 rs 1 - zn 0 rs 0 /\ 0 <= zn 0 cs 1 - zn 0 cs 0 /\ pm_rs A = rs /\ pm_cs A = cs /\ pm_diag A = f D.
Proof.
  intros H. unfold pm_make in H.
  destruct (get rs 0) as [r0|] eqn:E0; [|discriminate]. destruct (get rs 1) as [r1|] eqn:E1; [|discriminate].
  destruct (get cs 0) as [c0|] eqn:E2; [|discriminate]. destruct (get cs 1) as [c1|] eqn:E3; [|discriminate]. cbn [bind] in H.
  destruct (Z.leb_spec 0 (r1 - r0)) as [Hr|Hr]; [|discriminate]. destruct (Z.leb_spec 0 (c1 - c0)) as [Hc|Hc]; [|discriminate]. cbn [assert_ bind] in H.
  destruct (3 <=? zlen rs); [|discriminate]. destruct (3 <=? zlen cs); [|discriminate]. cbn [assert_ bind] in H.
  unfold pm_init in H. destruct (Z.eqb_spec (zlen rs) 3) as [L|]; [|discriminate]. destruct (Z.eqb_spec (zlen cs) 3) as [L'|]; [|discriminate]. cbn [assert_ bind] in H.
  apply (get_Ok_inv 0) in E0, E1, E2, E3. destruct E0 as (_ & ->), E1 as (_ & ->), E2 as (_ & ->), E3 as (_ & ->).
  rewrite !(get_ok 0) in H by lia. cbn [bind] in H.
  repeat match type of H with (assert_ ?b ;;; _) = _ => destruct b; [cbn [assert_ bind] in H|discriminate] | (let _ := _ in _) = _ => cbv zeta in H end.
  match type of H with bind ?m _ = _ => destruct m as [X|]; [cbn [bind] in H|discriminate] end.
  repeat match type of H with (assert_ ?b ;;; _) = _ => destruct b; [cbn [assert_ bind] in H|discriminate] end.
  match type of H with bind ?m _ = _ => destruct m as [[]|]; [cbn [bind] in H|discriminate] end.
  injection H as <-. now repeat split.
Qed.

Lemma mat_make_ok reorder rs cs D O cm A h R : pm_make (fun d => d) rs cs D O cm = Ok A -> holds h R ->
  exists m h' l, mat_make reorder rs cs D O cm h = Ok (m, h') /\ mat_owns m l /\ holds h' (l ++ R) /\ mo_A m <> Null /\
    mo_val m = ParMat rs cs (reorder (pm_diag A)) (pm_offd A) (pm_map A).
Proof.
  intros E H. unfold mat_make. rewrite E. cbn [bind]. apply pm_make_starts in E. destruct E as (Lr & Lc & Pr & Pc & _ & _ & _).
  destruct (op_make_ok rs cs h R) as (o & h1 & lo & -> & Oo & H1 & C & Ers & Ecs & _); try assumption; try lia. cbn [bind store h_objs h_next].
  match goal with |- context [mat_create reorder ?m ?h0] => pose proof (mat_create_ok reorder m lo h0 (lo ++ R) Oo C H1) as Q; destruct (mat_create reorder m h0) as (m', h') end.
  destruct Q as (l & Om & H' & NA & _ & EV). exists m', h', (l ++ lo). split; [reflexivity|]. split; [assumption|]. split; [now rewrite <- app_assoc|]. split; [assumption|]. rewrite EV. cbn. now rewrite Ers, Ecs.
Qed.

Lemma mat_copy_ok reorder m l h R : mat_owns m l -> holds h R ->
  exists m' h' l', mat_copy reorder m h = Ok (m', h') /\ mat_owns m' l' /\ holds h' (l' ++ R) /\
    (mo_A m = Null <-> mo_A m' = Null) /\ mo_val m' = (match mo_A m with Null => mo_val m | _ => pm_copy reorder (mo_val m) end) /\
    op_rows (mo_op m') = op_rows (mo_op m) /\ op_cols (mo_op m') = op_cols (mo_op m).
Proof.
  intros (lo & O & EA) H. unfold mat_copy.
  destruct (op_copy_ok _ _ h R O H) as (o' & h1 & lo' & -> & O' & H1 & C & Ers & Ecs & Er & Ec). cbn [bind store h_objs h_next].
  destruct EA as [(EA & EC & _)|(a & EA & EC & _)]; rewrite EA.
  - eexists _, _, lo'. split; [reflexivity|]. split; [|split; [exact H1|split; [now split|split; [|now split]]]].
    + exists lo'. split; [exact O'|]. left. split; [reflexivity|]. split; [cbn; congruence|reflexivity].
    + unfold mo_val. cbn. now rewrite Ers, Ecs.
  - match goal with |- context [mat_create reorder ?m ?h0] => pose proof (mat_create_ok reorder m lo' h0 (lo' ++ R) O' (eq_trans C EC) H1) as Q; destruct (mat_create reorder m h0) as (m', h') end.
    destruct Q as (l' & Om & H' & NA & Eo & EV). exists m', h', (l' ++ lo'). split; [reflexivity|]. split; [assumption|]. split; [now rewrite <- app_assoc|].
    split; [split; [discriminate|contradiction]|]. split; [|rewrite Eo; now split]. rewrite EV. unfold pm_copy, pm_with, mo_val. cbn. now rewrite Ers, Ecs.
Qed.

Lemma mat_swap_eq l r : mat_swap (S := S) l r = (r, l).
Proof. destruct l as [lo l1 l2 l3 l4], r as [ro r1 r2 r3 r4]. unfold mat_swap. cbn [mo_op mo_A mo_diag mo_offd mo_map]. now rewrite op_swap_eq. Qed.

Lemma mat_move_eq m h : mat_move (S := S) m h = ((m, fst (mat_default h)), snd (mat_default h)).
Proof. unfold mat_move. destruct (mat_default h) as (n, h'). now rewrite mat_swap_eq. Qed.

(** A matrix with a hypre matrix finds its own content there *)
Lemma mat_deref_ok m l h R : mat_owns m l -> holds h (l ++ R) -> mo_A m <> Null -> mat_deref h m = Ok (mo_val m).
Proof.
  intros (lo & O & [(EA & _)|(a & EA & _ & ->)]) H N; [contradiction|]. unfold mat_deref. rewrite EA, (holds_deref h _ a (mo_view m) H) by now left. cbn [bind]. unfold mo_view. now rewrite !Z.eqb_refl.
Qed.

(* ---------------------------------------------------------------- vectors *)

Lemma vec_create_ok v n h R : vo_comm v = true -> vo_gsize v = Some n -> holds h R ->
  exists v' h' l, vec_create v h = Ok (v', h') /\ vec_owns v' l /\ holds h' (l ++ R) /\ vo_data v' = vo_data v /\ vo_part v' = vo_part v /\ vo_gsize v' = vo_gsize v /\ vo_p v' <> Null.
Proof.
  intros C G H. unfold vec_create. rewrite C, G. unfold new_obj. eexists _, _, [(_, _)]. split; [reflexivity|]. split; [|split; [exact (holds_new h R _ H)|now repeat split]].
  right. eexists _, n. cbn. now repeat split.
Qed.

Lemma vec_make_ok l part n h R : pv_init (zlen l) part = Ok n -> holds h R ->
  exists v h' lv, vec_make l part h = Ok (v, h') /\ vec_owns v lv /\ holds h' (lv ++ R) /\ b_val (vo_data v) = l /\ b_val (vo_part v) = part /\ vo_gsize v = Some n /\ vo_p v <> Null.
Proof.
  intros E H. unfold vec_make. rewrite E. cbn [bind store].
  match goal with |- context [vec_create ?v ?h0] => destruct (vec_create_ok v n h0 R eq_refl eq_refl H) as (v' & h' & lv & -> & O & H' & Ed & Ep & Eg & N) end.
  exists v', h', lv. rewrite Ed, Ep, Eg. now repeat split.
Qed.

Lemma vec_copy_ok v l h R : vec_owns v l -> vo_p v <> Null -> holds h R ->
  exists v' h' l', vec_copy v h = Ok (v', h') /\ vec_owns v' l' /\ holds h' (l' ++ R) /\ b_val (vo_data v') = b_val (vo_data v) /\ b_val (vo_part v') = b_val (vo_part v) /\ vo_gsize v' = vo_gsize v /\ vo_p v' <> Null.
Proof.
  intros [(E & _)|(a & n & E & C & G & _)] N H; [contradiction|]. unfold vec_copy. cbn [store].
  match goal with |- context [vec_create ?v ?h0] => destruct (vec_create_ok v n h0 R C G H) as (v' & h' & lv & -> & O & H' & Ed & Ep & Eg & N') end.
  exists v', h', lv. rewrite Ed, Ep, Eg. now repeat split.
Qed.

Lemma vec_destroy_ok v l h R : vec_owns v l -> holds h (l ++ R) -> exists h', vec_destroy v h = Ok h' /\ holds h' R.
Proof.
  intros [(E & ->)|(a & n & E & _ & _ & ->)] H; unfold vec_destroy; rewrite E.
  - exists h. now split.
  - exact (holds_release is_vector h a _ R H eq_refl).
Qed.

Lemma vec_swap_eq l r : vec_swap (S := S) l r = (r, l).
Proof. now destruct l, r. Qed.

Lemma vec_deref_ok v l h R : vec_owns v l -> holds h (l ++ R) -> vo_p v <> Null -> vec_deref h v = Ok (b_val (vo_data v)).
Proof.
  intros [(E & _)|(a & n & E & _ & _ & ->)] H N; [contradiction|]. unfold vec_deref. rewrite E, (holds_deref h _ a _ H (or_introl eq_refl)). cbn [bind]. now rewrite !Z.eqb_refl.
Qed.

(* ---------------------------------------------------------------- solvers *)

(** The outcome of (create_)(&solver_) *)
Definition created (f : fn) (p : pointer) (l : list (Z * hobj)) : Prop :=
  (f = FnNone /\ p = Null /\ l = []) \/
  ((f = FnAMG \/ f = FnPCG) /\ exists a, p = Live a /\ l = [(a, HSolver (HSol f [] None None))]).

Lemma call_create_ok f h R : f = FnNone \/ f = FnAMG \/ f = FnPCG -> holds h R ->
  exists p h' l, call_create f h = Ok (p, h') /\ created f p l /\ holds h' (l ++ R).
Proof.
  intros [->|[->| ->]] H; unfold call_create.
  - exists Null, h, []. split; [reflexivity|]. split; [left; now repeat split|assumption].
  - eexists _, _, [(_, _)]. split; [reflexivity|]. split; [right; split; [now left|]; eexists; now split|]. exact (holds_new h R _ H).
  - eexists _, _, [(_, _)]. split; [reflexivity|]. split; [right; split; [now right|]; eexists; now split|]. exact (holds_new h R _ H).
Qed.

(** What a solver object made from matrix object A holds *)
Definition solver_of (A : matobj) (iter : Z) (tol : T) (verbose : bool) (fam : fn * fn * fn * fn) (s : solobj) : Prop :=
  so_A s = A /\ so_iter s = iter /\ so_tol s = tol /\ so_verbose s = verbose /\ family s = fam /\
  op_comm (so_op s) = true /\ b_val (op_rs (so_op s)) = b_val (op_rs (mo_op A)) /\ b_val (op_cs (so_op s)) = b_val (op_cs (mo_op A)).

Definition made_matrix (A : matobj) : Prop :=
  mo_A A <> Null /\ op_rows (mo_op A) = op_cols (mo_op A) /\ pm_grows (mo_val A) = pm_gcols (mo_val A).

Ltac conjs := repeat (split; [first [reflexivity|eassumption]|]); first [reflexivity|eassumption].

Lemma mat_owns_starts m l : mat_owns m l -> mo_A m <> Null ->
  op_comm (mo_op m) = true /\ starts_ok (b_val (op_rs (mo_op m))) (op_rows (mo_op m)) /\ starts_ok (b_val (op_cs (mo_op m))) (op_cols (mo_op m)).
Proof.
  intros (lo & O & [(E & _)|(a & _ & C & _)]) N; [contradiction|]. destruct O as [(C' & _)|(_ & Sr & Sc & _)]; [congruence|exact (conj C (conj Sr Sc))].
Qed.

Lemma sol_make_ok A la iter tol verbose create destroy setup solve h R :
  mat_owns A la -> made_matrix A -> create = FnNone \/ create = FnAMG \/ create = FnPCG -> holds h (la ++ R) ->
  exists s h' lo ls, sol_make A iter tol verbose create destroy setup solve h = Ok (s, h') /\ op_owns (so_op s) lo /\
    solver_of A iter tol verbose (create, destroy, setup, solve) s /\ created create (so_solver s) ls /\ so_smooth s = no_smooth /\
    holds h' (ls ++ la ++ lo ++ R).
Proof.
  intros OA (NA & ER & EG) F H. unfold sol_make.
  destruct (mat_owns_starts _ _ OA NA) as (_ & (Lr & Er & Pr) & (Lc & Ec & Pc)).
  destruct (op_make_ok (b_val (op_rs (mo_op A))) (b_val (op_cs (mo_op A))) h (la ++ R)) as (o & h1 & lo & -> & Oo & H1 & C & Ers & Ecs & _); try assumption; try lia.
  cbn [bind]. rewrite mat_move_eq. destruct (mat_default_ok h1 _ H1) as (H2 & O2).
  rewrite ER, EG, !Z.eqb_refl. cbn [assert_ bind].
  destruct (call_create_ok create _ _ F H2) as (p & h3 & ls & -> & Cr & H3). cbn [bind].
  destruct (mat_destroy_ok _ [] h3 _ O2 H3) as (h4 & -> & H4). cbn [bind].
  eexists _, _, lo, ls. split; [reflexivity|]. split; [exact Oo|]. split; [now repeat split|]. split; [exact Cr|]. split; [reflexivity|].
  eapply holds_perm; [exact H4|]. apply Permutation_app_head. rewrite !app_assoc. apply Permutation_app_tail, Permutation_app_comm.
Qed.

Lemma mat_deref_in m l h R : mat_owns m l -> holds h R -> incl l R -> mo_A m <> Null -> mat_deref h m = Ok (mo_val m).
Proof.
  intros (lo & O & [(EA & _)|(a & EA & _ & ->)]) H I N; [contradiction|]. unfold mat_deref. rewrite EA, (holds_deref h _ a (mo_view m) H) by (apply I; now left). cbn [bind]. unfold mo_view. now rewrite !Z.eqb_refl.
Qed.

(** Setting up hands the matrix to the hypre solver. *)
Lemma sol_setup_ok s la f a t h R : holds h ((a, HSolver t) :: R) -> mat_owns (so_A s) la -> mo_A (so_A s) <> Null -> so_setup s = f -> f = FnAMG \/ f = FnPCG \/ f = FnSails ->
  so_solver s = Live a -> hs_kind t = f -> incl la R ->
  exists h', sol_setup s h = Ok h' /\ holds h' ((a, HSolver (with_matrix (mo_val (so_A s)) t)) :: R).
Proof.
  intros H OA NA Ef F Es Ek I. unfold sol_setup. rewrite Ef. destruct (holds_update f (with_matrix (mo_val (so_A s))) h a t R H Ek) as (h' & U & H').
  exists h'. split; [|exact H'].
  assert (D : mat_deref h (so_A s) = Ok (mo_val (so_A s))) by (eapply mat_deref_in; [exact OA|exact H|now apply incl_tl|exact NA]).
  destruct F as [->|[->| ->]]; rewrite D; cbn [bind]; now rewrite Es.
Qed.

Lemma incl_app_l' {X} (a b : list X) : incl a (a ++ b).
Proof. intros x I. apply in_or_app. now left. Qed.

Lemma amg_make_ok quarter A la iter tol verbose h R : mat_owns A la -> made_matrix A -> holds h (la ++ R) ->
  exists s h' lo a, amg_make quarter A iter tol verbose h = Ok (s, h') /\ op_owns (so_op s) lo /\
    solver_of A iter tol verbose (FnAMG, FnAMG, FnAMG, FnAMG) s /\ so_solver s = Live a /\ so_smooth s = no_smooth /\
    holds h' ([(a, HSolver (HSol FnAMG (amg_params quarter iter tol verbose) (Some (mo_val A)) None))] ++ la ++ lo ++ R).
Proof.
  intros OA MA H. unfold amg_make. destruct (sol_make_ok A la iter tol verbose FnAMG FnAMG FnAMG FnAMG h R OA MA (or_intror (or_introl eq_refl)) H)
    as (s & h1 & lo & ls & -> & Oo & SO & Cr & Sm & H1). cbn [bind].
  destruct Cr as [(E & _)|(_ & a & Ea & ->)]; [discriminate|]. pose proof SO as (EA & _ & _ & _ & EF & _). injection EF as E1 E2 E3 E4.
  rewrite Ea. destruct (holds_update FnAMG (with_params (amg_params quarter iter tol verbose)) h1 a _ _ H1 eq_refl) as (h2 & -> & H2). cbn [bind].
  destruct (sol_setup_ok s la FnAMG a _ h2 _ H2 ltac:(now rewrite EA) ltac:(rewrite EA; apply MA) E3 (or_introl eq_refl) Ea eq_refl (incl_app_l' _ _)) as (h3 & -> & H3).
  cbn [bind]. exists s, h3, lo, a. split; [reflexivity|]. split; [assumption|]. split; [assumption|]. split; [assumption|]. split; [assumption|]. rewrite EA in H3. exact H3.
Qed.

Lemma cg_make_ok A la iter tol verbose h R : mat_owns A la -> made_matrix A -> holds h (la ++ R) ->
  exists s h' lo a, cg_make A iter tol verbose h = Ok (s, h') /\ op_owns (so_op s) lo /\
    solver_of A iter tol verbose (FnPCG, FnPCG, FnPCG, FnPCG) s /\ so_solver s = Live a /\ so_smooth s = no_smooth /\
    holds h' ([(a, HSolver (HSol FnPCG (cg_params iter tol verbose) (Some (mo_val A)) None))] ++ la ++ lo ++ R).
Proof.
  intros OA MA H. unfold cg_make. destruct (sol_make_ok A la iter tol verbose FnPCG FnPCG FnPCG FnPCG h R OA MA (or_intror (or_intror eq_refl)) H)
    as (s & h1 & lo & ls & -> & Oo & SO & Cr & Sm & H1). cbn [bind].
  destruct Cr as [(E & _)|(_ & a & Ea & ->)]; [discriminate|]. pose proof SO as (EA & _ & _ & _ & EF & _). injection EF as E1 E2 E3 E4.
  rewrite Ea. destruct (holds_update FnPCG (with_params (cg_params iter tol verbose)) h1 a _ _ H1 eq_refl) as (h2 & -> & H2). cbn [bind].
  destruct (sol_setup_ok s la FnPCG a _ h2 _ H2 ltac:(now rewrite EA) ltac:(rewrite EA; apply MA) E3 (or_intror (or_introl eq_refl)) Ea eq_refl (incl_app_l' _ _)) as (h3 & -> & H3).
  cbn [bind]. exists s, h3, lo, a. split; [reflexivity|]. split; [assumption|]. split; [assumption|]. split; [assumption|]. split; [assumption|]. rewrite EA in H3. exact H3.
Qed.

Lemma sails_make_ok trunc A la verbose reuse sym load threshold filter levels h R : mat_owns A la -> made_matrix A -> holds h (la ++ R) ->
  exists s h' lo a, sails_make trunc A verbose reuse sym load threshold filter levels h = Ok (s, h') /\ op_owns (so_op s) lo /\
    solver_of A 0 s0 verbose (FnNone, FnSails, FnSails, FnSails) s /\ so_solver s = Live a /\ so_smooth s = no_smooth /\
    holds h' ([(a, HSolver (HSol FnSails (sails_params trunc verbose reuse sym load threshold filter levels) (Some (mo_val A)) None))] ++ la ++ lo ++ R).
Proof.
  intros OA MA H. unfold sails_make. destruct (sol_make_ok A la 0 s0 verbose FnNone FnSails FnSails FnSails h R OA MA (or_introl eq_refl) H)
    as (s & h1 & lo & ls & -> & Oo & SO & Cr & Sm & H1). cbn [bind].
  destruct Cr as [(_ & Ea & ->)|([E|E] & _)]; [|discriminate|discriminate]. cbn [app] in H1.
  pose proof (holds_new h1 _ (HSolver (HSol FnSails [] None None)) H1) as H2. cbn [new_obj snd] in H2. unfold new_obj. set (a := zlen (h_objs h1)) in *.
  destruct (holds_update FnSails (with_params (sails_params trunc verbose reuse sym load threshold filter levels)) _ a _ _ H2 eq_refl) as (h3 & -> & H3). cbn [bind].
  destruct SO as (EA & Ei & Et & Ev & EF & SO). injection EF as E1 E2 E3 E4.
  match goal with |- context [sol_setup ?n h3] => destruct (sol_setup_ok n la FnSails a _ h3 _ H3) as (h4 & -> & H4); try reflexivity end; cbn [so_A so_setup]; try assumption.
  { now rewrite EA. } { rewrite EA. apply MA. } { right. now right. } { apply incl_app_l'. }
  cbn [bind]. eexists _, h4, lo, a. split; [reflexivity|]. split; [assumption|]. split; [|split; [reflexivity|split; [exact Sm|]]].
  - repeat split; cbn; try assumption; try apply SO. unfold family. cbn. congruence.
  - cbn [so_A] in H4. rewrite EA in H4. exact H4.
Qed.

Lemma diag_make_ok A la iter tol verbose h R : mat_owns A la -> made_matrix A -> holds h (la ++ R) ->
  exists s h' lo, diag_make A iter tol verbose h = Ok (s, h') /\ op_owns (so_op s) lo /\
    solver_of A iter tol verbose (FnNone, FnNone, FnDiag, FnDiag) s /\ so_solver s = Null /\ so_smooth s = no_smooth /\ holds h' (la ++ lo ++ R).
Proof.
  intros OA MA H. unfold diag_make. destruct (sol_make_ok A la iter tol verbose FnNone FnNone FnDiag FnDiag h R OA MA (or_introl eq_refl) H)
    as (s & h1 & lo & ls & -> & Oo & SO & Cr & Sm & H1). cbn [bind].
  destruct Cr as [(_ & Ea & ->)|([E|E] & _)]; [|discriminate|discriminate]. cbn [app] in H1.
  pose proof SO as (EA & _ & _ & _ & EF & _). injection EF as E1 E2 E3 E4. unfold sol_setup. rewrite E3. rewrite (mat_deref_in (so_A s) la h1 (la ++ lo ++ R)); rewrite ?EA; try assumption; try apply incl_app_l'; try apply MA.
  cbn [bind]. exists s, h1, lo. conjs.
Qed.

Lemma smoother_make_ok half ratio A la type times weight omega norms h R : mat_owns A la -> made_matrix A -> holds h (la ++ R) ->
  (exists st, l1_norms half ratio type (mo_val A) [] = Ok (norms, st)) ->
  exists s h' lo a, smoother_make half ratio A type times weight omega h = Ok (s, h') /\ op_owns (so_op s) lo /\
    solver_of A 0 s0 false (FnNone, FnNone, FnNone, FnNone) s /\ so_solver s = Null /\ so_smooth s = Smooth type times weight omega (Live a) norms /\
    holds h' ([(a, HVector (b_id (op_rs (so_op s))) None)] ++ la ++ lo ++ R).
Proof.
  intros OA MA H (st & EN). unfold smoother_make. destruct (sol_make_ok A la 0 s0 false FnNone FnNone FnNone FnNone h R OA MA (or_introl eq_refl) H)
    as (s & h1 & lo & ls & -> & Oo & SO & Cr & Sm & H1). cbn [bind].
  destruct Cr as [(_ & Ea & ->)|([E|E] & _)]; [|discriminate|discriminate]. cbn [app] in H1.
  destruct SO as (EA & Ei & Et & Ev & EF & Cm & Ers & Ecs). destruct (mat_owns_starts _ _ OA (proj1 MA)) as (_ & (Lr & _) & _).
  destruct (init_vector_ok (op_rs (so_op s)) h1 _ ltac:(rewrite Ers; exact Lr) H1) as (a & h2 & -> & H2). cbn [bind]. rewrite EA, EN. cbn [bind].
  eexists _, h2, lo, a. split; [reflexivity|]. split; [exact Oo|]. split; [now repeat split|]. split; [exact Ea|]. split; [reflexivity|]. exact H2.
Qed.

Lemma base_make_ok A la h R : mat_owns A la -> made_matrix A -> holds h (la ++ R) ->
  exists s h' lo, sol_make A 0 s0 false FnNone FnNone FnNone FnNone h = Ok (s, h') /\ op_owns (so_op s) lo /\
    solver_of A 0 s0 false (FnNone, FnNone, FnNone, FnNone) s /\ so_solver s = Null /\ so_smooth s = no_smooth /\ holds h' (la ++ lo ++ R).
Proof.
  intros OA MA H. destruct (sol_make_ok A la 0 s0 false FnNone FnNone FnNone FnNone h R OA MA (or_introl eq_refl) H)
    as (s & h1 & lo & ls & -> & Oo & SO & Cr & Sm & H1).
  destruct Cr as [(_ & Ea & ->)|([E|E] & _)]; [|discriminate|discriminate]. exists s, h1, lo. conjs.
Qed.

Lemma sol_default_ok c h R : holds h R -> holds (snd (sol_default h)) R /\ sol_owns c (fst (sol_default h)) [].
Proof.
  intros H. split; [exact H|]. exists [], [], [], []. split; [left; now repeat split|]. split; [exact (proj2 (mat_default_ok (snd (op_default h)) R H))|]. split; [left; repeat split; now left|]. split; [left; now split|reflexivity].
Qed.

Lemma sol_destroy_ok c s l h R : sol_owns c s l -> holds h (l ++ R) -> exists h', sol_destroy s h = Ok h' /\ holds h' R.
Proof.
  intros (lo & la & ls & lb & Oo & OA & OH & OS & ->) H. rewrite <- !app_assoc in H. unfold sol_destroy.
  assert (X : exists h1, destroy_vector (sm_shell (so_smooth s)) h = Ok h1 /\ holds h1 (ls ++ la ++ lo ++ R)).
  { destruct OS as [(-> & ->)|(a & E & _ & ->)]; [exists h; now split|]. exact (holds_destroy_vector h _ None a _ E _ H). }
  destruct X as (h1 & -> & H1). cbn [bind].
  assert (X : exists h2, call_destroy (so_destroy s) (so_solver s) h1 = Ok h2 /\ holds h2 (la ++ lo ++ R)).
  { destruct OH as [(Es & -> & F)|(a & t & Es & -> & _ & F)].
    - exists h1. split; [|exact H1]. destruct F as [F|(F & _)]; injection F as _ -> _ _; reflexivity.
    - destruct F as [(K & F)|[(K & F)|(K & F & _)]]; injection F as _ -> _ _; rewrite Es; apply (holds_release _ _ _ _ _ H1); cbn; rewrite K; reflexivity. }
  destruct X as (h2 & -> & H2). cbn [bind].
  destruct (mat_destroy_ok _ _ _ _ OA H2) as (h3 & -> & H3). cbn [bind]. exact (op_destroy_ok _ _ _ _ Oo H3).
Qed.

Lemma sol_swap_eq l r : sol_swap (S := S) l r = (r, l).
Proof.
  destruct l as [lo l1 l2 l3 lA l4 l5 l6 l7 l8 [m1 m2 m3 m4 m5 m6]], r as [ro r1 r2 r3 rA r4 r5 r6 r7 r8 [n1 n2 n3 n4 n5 n6]]. unfold sol_swap.
  cbn [so_op so_A so_iter so_tol so_verbose so_create so_destroy so_setup so_solve so_solver so_smooth sm_type sm_times sm_weight sm_omega sm_shell sm_norms]. now rewrite op_swap_eq, mat_swap_eq.
Qed.

Lemma handle_create c s ls : handle_owns c s ls -> (c = Sails -> so_solver s = Null) ->
  (so_create s = FnNone /\ so_solver s = Null /\ (so_setup s = FnNone \/ so_setup s = FnDiag /\ mo_A (so_A s) <> Null)) \/
  ((so_create s = FnAMG \/ so_create s = FnPCG) /\ so_setup s = so_create s /\ mo_A (so_A s) <> Null).
Proof.
  intros [(Es & _ & F)|(a & t & Es & _ & NA & F)] NS.
  - left. destruct F as [F|(F & NA)]; injection F as -> _ -> _; repeat split; try assumption; [now left|right; now split].
  - destruct F as [(_ & F)|[(_ & F)|(_ & _ & C)]].
    + injection F as -> _ -> _. right. repeat split; [now left|assumption].
    + injection F as -> _ -> _. right. repeat split; [now right|assumption].
    + rewrite (NS C) in Es. discriminate.
Qed.

Lemma base_copy_ok reorder c s l h R : sol_owns c s l -> (c = Sails -> so_solver s = Null) -> holds h R ->
  exists n h' lo la ls, base_copy reorder s h = Ok (n, h') /\ op_owns (so_op n) lo /\ mat_owns (so_A n) la /\
    created (so_create s) (so_solver n) ls /\ handle_owns c n ls /\ holds h' (ls ++ la ++ lo ++ R) /\ so_smooth n = no_smooth /\ family n = family s /\
    (mo_A (so_A s) = Null <-> mo_A (so_A n) = Null) /\ mo_val (so_A n) = (match mo_A (so_A s) with Null => mo_val (so_A s) | _ => pm_copy reorder (mo_val (so_A s)) end) /\
    op_comm (so_op n) = op_comm (so_op s) /\ b_val (op_rs (so_op n)) = b_val (op_rs (so_op s)).
Proof.
  intros (lo0 & la0 & ls0 & lb0 & Oo & OA & OH & OS & ->) NS H. unfold base_copy.
  destruct (op_copy_ok _ _ h R Oo H) as (o & h1 & lo & -> & Oo' & H1 & C & Ers & Ecs & _). cbn [bind].
  destruct (mat_copy_ok reorder _ _ h1 _ OA H1) as (A & h2 & la & -> & OA' & H2 & EN & EV & _). cbn [bind].
  destruct (handle_create _ _ _ OH NS) as [(Ec & Es & EF)|(Ec & EF & NA)].
  - destruct (call_create_ok (so_create s) h2 _ (or_introl Ec) H2) as (p & h3 & ls & -> & Cr & H3). cbn [bind].
    eexists _, h3, lo, la, ls. split; [reflexivity|]. split; [exact Oo'|]. split; [exact OA'|]. split; [exact Cr|]. split; [|conjs].
    destruct Cr as [(_ & -> & ->)|([E|E] & _)]; [|congruence|congruence].
    left. split; [reflexivity|]. split; [reflexivity|]. destruct OH as [(_ & _ & F)|(a & t & Es' & _)]; [|congruence]. destruct F as [F|(F & N)]; [now left|right]. split; [exact F|]. cbn. tauto.
  - assert (Ec' : so_create s = FnNone \/ so_create s = FnAMG \/ so_create s = FnPCG) by tauto.
    destruct (call_create_ok (so_create s) h2 _ Ec' H2) as (p & h3 & ls & -> & Cr & H3). cbn [bind].
    eexists _, h3, lo, la, ls. split; [reflexivity|]. split; [exact Oo'|]. split; [exact OA'|]. split; [exact Cr|]. split; [|conjs].
    destruct Cr as [(E & _)|(_ & a & -> & ->)]; [destruct Ec; congruence|].
    right. eexists a, _. split; [reflexivity|]. split; [reflexivity|]. split; [cbn; tauto|]. cbn [hs_kind].
    destruct OH as [(_ & _ & [F|(F & N)])|(a' & t & Es' & _ & _ & [(_ & F)|[(_ & F)|(_ & F & _)]])]; injection F as F1 F2 F3 F4; try (destruct Ec; congruence).
    + left. split; [assumption|]. unfold family. cbn. congruence.
    + right. left. split; [assumption|]. unfold family. cbn. congruence.
Qed.

(** What a copy of a solver holds *)
Record copy_of (reorder : csr -> csr) (c : class) (s n : solobj) (ls : list (Z * hobj)) : Prop := CopyOf {
  co_family : family n = family s;
  co_null : mo_A (so_A s) = Null <-> mo_A (so_A n) = Null;
  co_val : mo_val (so_A n) = (match mo_A (so_A s) with Null => mo_val (so_A s) | _ => pm_copy reorder (mo_val (so_A s)) end);
  co_smooth : c = Smoother -> exists a, so_smooth n = Smooth (sm_type (so_smooth s)) (sm_times (so_smooth s)) (sm_weight (so_smooth s)) (sm_omega (so_smooth s)) (Live a) (sm_norms (so_smooth s));
  co_comm : op_comm (so_op n) = op_comm (so_op s);
  co_handle : (created (so_create s) (so_solver n) ls /\ (c = CG -> so_solver n = Null)) \/
    (c = CG /\ exists a, so_solver n = Live a /\ ls = [(a, HSolver (HSol (so_create s) [] (Some (mo_val (so_A n))) None))])
}.

Lemma sol_copy_ok reorder c s l h R : sol_owns c s l -> copyable (OSol c s) -> holds h R ->
  exists n h' lo la ls lb, sol_copy reorder c s h = Ok (n, h') /\ op_owns (so_op n) lo /\ mat_owns (so_A n) la /\ handle_owns c n ls /\ shell_owns n lb /\
    holds h' ((lb ++ ls ++ la ++ lo) ++ R) /\ copy_of reorder c s n ls.
Proof.
  intros O K H. unfold sol_copy.
  assert (NS : c = Sails -> so_solver s = Null) by (intros ->; exact K).
  destruct (base_copy_ok reorder c s l h R O NS H) as (n & h1 & lo & la & ls & -> & Oo & OA & Cr & OH & H1 & Sm & EF & EN & EV & Cm & Ers). cbn [bind].
  assert (Plain : c <> Smoother -> (c = CG -> so_create s = FnNone) -> exists n0 h' lo la ls lb, Ok (n, h1) = Ok (n0, h') /\ op_owns (so_op n0) lo /\ mat_owns (so_A n0) la /\ handle_owns c n0 ls /\ shell_owns n0 lb /\
    holds h' ((lb ++ ls ++ la ++ lo) ++ R) /\ copy_of reorder c s n0 ls).
  { intros NSm NCG. exists n, h1, lo, la, ls, []. split; [reflexivity|]. split; [exact Oo|]. split; [exact OA|]. split; [exact OH|]. split; [left; rewrite Sm; now split|].
    split; [cbn [app]; now rewrite <- !app_assoc|]. constructor; try assumption; [intros ->; contradiction|left; split; [exact Cr|]]. intros E. destruct Cr as [(_ & Ep & _)|([E'|E'] & _)]; [exact Ep| |]; rewrite (NCG E) in E'; discriminate. }
  destruct c; try (apply Plain; discriminate).
  - (* CG *)
    destruct O as (lo0 & la0 & ls0 & lb0 & Oo0 & OA0 & OH0 & OS0 & ->).
    assert (EF' := EF). unfold family in EF'. injection EF' as F1 F2 F3 F4.
    destruct (handle_create _ _ _ OH0 NS) as [(Ec & Es & [Es'|(Es' & NA)])|(Ec & Es & NA)].
    + unfold sol_setup. rewrite F3, Es'. cbn [bind]. apply Plain; [discriminate|now intros _].
    + unfold sol_setup. rewrite F3, Es'. assert (NA' : mo_A (so_A n) <> Null) by tauto.
      rewrite (mat_deref_in (so_A n) la h1 _ OA H1) by (try assumption; apply incl_appr, incl_app_l'). cbn [bind]. apply Plain; [discriminate|now intros _].
    + destruct Cr as [(E & _)|(_ & a & Ea & ->)]; [destruct Ec; congruence|]. cbn [app] in H1. assert (NA' : mo_A (so_A n) <> Null) by tauto.
      destruct (sol_setup_ok n la (so_create s) a _ h1 _ H1 OA NA' ltac:(congruence) ltac:(tauto) Ea eq_refl (incl_app_l' _ _)) as (h2 & -> & H2). cbn [bind].
      eexists n, h2, lo, la, [(a, _)], []. split; [reflexivity|]. split; [exact Oo|]. split; [exact OA|]. split; [|split; [left; rewrite Sm; now split|split; [cbn [app]; rewrite <- app_assoc; exact H2|]]].
      * right. eexists a, _. split; [exact Ea|]. split; [reflexivity|]. split; [exact NA'|]. cbn [with_matrix hs_kind hs_set hs_pre].
        destruct OH as [(Es2 & _)|(a' & t & Es2 & E & _ & F)]; [congruence|]. injection E as _ <-. cbn [hs_kind] in F. exact F.
      * constructor; try assumption; [discriminate|]. right. split; [reflexivity|]. exists a. split; [exact Ea|]. reflexivity.
  - (* Smoother *)
    destruct O as (lo0 & la0 & ls0 & lb0 & Oo0 & OA0 & OH0 & OS0 & ->).
    destruct OS0 as [(E & _)|(a0 & E & C0 & _)]; [exfalso; apply K; exact E|].
    destruct Oo0 as [(C1 & _)|(_ & (Lr & _) & _)]; [congruence|].
    destruct (init_vector_ok (op_rs (so_op n)) h1 _ ltac:(rewrite Ers; exact Lr) H1) as (a & h2 & -> & H2). cbn [bind].
    eexists _, h2, lo, la, ls, [(a, _)]. split; [reflexivity|]. split; [exact Oo|]. split; [exact OA|]. split; [exact OH|]. split; [|split; [|]].
    + right. exists a. split; [reflexivity|]. split; [cbn; congruence|]. reflexivity.
    + cbn [app]. rewrite <- !app_assoc. exact H2.
    + constructor; try assumption; [intros _; now exists a|left; split; [exact Cr|discriminate]].
Qed.

Lemma copy_ok reorder o l h R : owns (Some o) l -> copyable o -> holds h R ->
  exists o' h' l', copy reorder o h = Ok (o', h') /\ owns (Some o') l' /\ holds h' (l' ++ R).
Proof.
  intros O K H. destruct o as [m|v|c s]; unfold copy.
  - destruct (mat_copy_ok reorder m l h R O H) as (m' & h' & l' & -> & O' & H' & _). exists (OMat m'), h', l'. conjs.
  - destruct (vec_copy_ok v l h R O K H) as (m' & h' & l' & -> & O' & H' & _). exists (OVec m'), h', l'. conjs.
  - destruct (sol_copy_ok reorder c s l h R O K H) as (n & h' & lo & la & ls & lb & -> & Oo & OA & OH & OS & H' & _). eexists (OSol c n), h', _. split; [reflexivity|]. split; [|exact H'].
    exists lo, la, ls, lb. conjs.
Qed.

(** The object a moved-from object of the same class becomes *)
Definition fresh (o : obj) (h : heap) : obj * heap :=
  match o with
  | OMat _ => (OMat (fst (mat_default h)), snd (mat_default h))
  | OVec _ => (OVec (VecObj (Box (h_next h) []) false Null (Box (h_next h + 1) []) (Some 0)), Heap (h_objs h) (h_next h + 1 + 1))
  | OSol c _ => (OSol c (fst (sol_default h)), snd (sol_default h))
  end.

Lemma move_eq o h : movable o -> move o h = ((o, fst (fresh o h)), snd (fresh o h)).
Proof.
  destruct o as [m|v|c s]; intros K; unfold move, fresh.
  - now rewrite mat_move_eq.
  - unfold vec_move. cbn [store h_objs h_next]. now rewrite vec_swap_eq.
  - unfold sol_move. destruct (sol_default h) as (n, h'). destruct c; try contradiction; now rewrite sol_swap_eq.
Qed.

Lemma fresh_ok o h R : holds h R -> holds (snd (fresh o h)) R /\ owns (Some (fst (fresh o h))) [].
Proof.
  intros H. destruct o as [m|v|c s].
  - exact (mat_default_ok h R H).
  - split; [exact H|]. left. now split.
  - exact (sol_default_ok c h R H).
Qed.

Lemma class_eqb_refl c : class_eqb c c = true.
Proof. now destruct c. Qed.

Lemma swap_eq (a b : obj) : same_class a b -> swap a b = Ok (b, a).
Proof.
  destruct a as [m|v|c s], b as [m'|v'|c' s']; intros K; try contradiction; unfold swap.
  - now rewrite mat_swap_eq.
  - now rewrite vec_swap_eq.
  - cbn in K. subst c'. rewrite class_eqb_refl, sol_swap_eq. reflexivity.
Qed.

Lemma destroy_ok o l h R : owns (Some o) l -> holds h (l ++ R) -> exists h', destroy o h = Ok h' /\ holds h' R.
Proof.
  destruct o as [m|v|c s]; unfold destroy, owns.
  - apply mat_destroy_ok.
  - apply vec_destroy_ok.
  - apply sol_destroy_ok.
Qed.

Lemma assign_ok t o lt h R : same_class t o -> owns (Some t) lt -> holds h (lt ++ R) -> exists h', assign t o h = Ok (o, h') /\ holds h' R.
Proof.
  intros K O H. unfold assign. rewrite (swap_eq _ _ K). cbn [bind]. destruct (destroy_ok t lt h R O H) as (h' & -> & H'). cbn [bind]. exists h'. now split.
Qed.

Lemma copy_class reorder (o : obj) h o' h' : copy reorder o h = Ok (o', h') -> same_class o o'.
Proof.
  destruct o as [m|v|c s]; unfold copy; intros H.
  - destruct (mat_copy reorder m h) as [(n, h2)|]; [|discriminate]. now injection H as <- _.
  - destruct (vec_copy v h) as [(n, h2)|]; [|discriminate]. now injection H as <- _.
  - destruct (sol_copy reorder c s h) as [(n, h2)|]; [|discriminate]. now injection H as <- _.
Qed.

(* ---------------------------------------------------------------- histories *)

(** Every object holds the hypre objects of its list, no two share one, and there are no others. *)
Definition inv (st : lstate (S := S)) (ls : list (list (Z * hobj))) : Prop :=
  zlen ls = zlen (fst st) /\ (forall k, 0 <= k < zlen (fst st) -> owns (zn None (fst st) k) (zn [] ls k)) /\ holds (snd st) (concat ls).

Lemma concat_pick {X} (ls : list (list X)) i : 0 <= i < zlen ls ->
  exists R, Permutation (concat ls) (zn [] ls i ++ R) /\ forall l, Permutation (concat (upd ls (Z.to_nat i) l)) (l ++ R).
Proof.
  revert i. induction ls as [|x ls IH]; intros i Hi; [change (zlen (@nil (list X))) with 0 in Hi; lia|].
  rewrite zlen_cons in Hi. destruct (Z.eq_dec i 0) as [->|N].
  - exists (concat ls). split; [apply Permutation_refl|]. intros l. apply Permutation_refl.
  - destruct (IH (i - 1) ltac:(lia)) as (R & P & Q). exists (x ++ R). rewrite zn_cons_pos by lia. cbn [concat]. split.
    + eapply perm_trans; [apply Permutation_app_head; exact P|apply Permutation_app_swap_app].
    + intros l. replace (Z.to_nat i) with (Datatypes.S (Z.to_nat (i - 1))) by lia. cbn [upd concat]. eapply perm_trans; [apply Permutation_app_head; apply Q|apply Permutation_app_swap_app].
Qed.

Lemma look_inv os i (o : obj) : look os i = Ok o -> 0 <= i < zlen os /\ zn None os i = Some o.
Proof.
  unfold look. destruct (get os i) as [x|] eqn:E; [|discriminate]. cbn [bind]. apply (get_Ok_inv None) in E. destruct E as (Hi & ->). destruct (zn None os i) as [y|]; [|discriminate]. intros H. injection H as ->. now split.
Qed.

Lemma look_ok os i (o : obj) : 0 <= i < zlen os -> zn None os i = Some o -> look os i = Ok o.
Proof. intros Hi E. unfold look. rewrite (get_ok None) by assumption. cbn [bind]. now rewrite E. Qed.

(** One more object *)
Lemma inv_made os h ls o l h' : inv (os, h) ls -> owns (Some o) l -> holds h' (l ++ concat ls) -> inv (os ++ [Some o], h') (ls ++ [l]).
Proof.
  intros (L & O & H) Oo H'. unfold inv in *. cbn [fst snd] in *. pose proof (zlen_nonneg os). split; [|split].
  - rewrite !zlen_app. change (zlen [l]) with 1. change (zlen [Some o]) with 1. lia.
  - intros k Hk. rewrite zlen_app in Hk. change (zlen [Some o]) with 1 in Hk. destruct (Z.eq_dec k (zlen os)) as [->|N].
    + rewrite zn_app_r by lia. rewrite zn_app_r by lia. rewrite L. replace (zlen os - zlen os) with 0 by lia. exact Oo.
    + rewrite !zn_app_l by lia. apply O. lia.
  - rewrite concat_app. cbn [concat]. rewrite app_nil_r. eapply holds_perm; [exact H'|apply Permutation_app_comm].
Qed.

(** An object replaced *)
Lemma inv_set os h ls i v l h' : inv (os, h) ls -> 0 <= i < zlen os -> owns v l -> holds h' (concat (upd ls (Z.to_nat i) l)) ->
  inv (upd os (Z.to_nat i) v, h') (upd ls (Z.to_nat i) l).
Proof.
  intros (L & O & H) Hi Ov H'. unfold inv in *. cbn [fst snd] in *. split; [now rewrite !zlen_upd|]. split; [|exact H'].
  intros k Hk. rewrite zlen_upd in Hk. rewrite !zn_upd by lia. destruct (Z.eqb_spec i k), (Z.eqb_spec k i); try lia; [exact Ov|now apply O].
Qed.

(** The frame of a step: objects that stay or are moved keep what they hold. *)
Definition frame (op : lop (S := S)) (os os' : list (option obj)) (ls ls' : list (list (Z * hobj))) : Prop :=
  forall k k0, 0 <= k -> from op (zlen os) k = Some k0 -> 0 <= k0 < zlen os -> k < zlen os' /\ zn None os' k = zn None os k0 /\ zn [] ls' k = zn [] ls k0.

Lemma frame_made op os ls o l : zlen ls = zlen os -> (forall n k, from op n k = if k <? n then Some k else None) -> frame op os (os ++ [Some o]) ls (ls ++ [l]).
Proof.
  intros L F k k0 Hk E Hk0. rewrite F in E. destruct (Z.ltb_spec k (zlen os)); [|discriminate]. injection E as <-. rewrite zlen_app. change (zlen [Some o]) with 1. split; [lia|]. now rewrite !zn_app_l by lia.
Qed.

Lemma square_inv os h ls i : inv (os, h) ls -> square os i ->
  exists m, look_mat os i = Ok m /\ mat_owns m (zn [] ls i) /\ made_matrix m.
Proof.
  intros (L & O & H) (m & E & K). exists m. split; [exact E|]. split; [|exact K]. unfold look_mat in E. destruct (look os i) as [o|] eqn:Eo; [|discriminate]. cbn [bind] in E.
  destruct o as [m'|v|c s]; try discriminate. injection E as ->. apply look_inv in Eo. destruct Eo as (Hi & Eo). cbn [fst] in O. specialize (O i Hi). now rewrite Eo in O.
Qed.

(** The matrix that a solver constructor receives *)
Lemma square_copy e os h ls i : inv (os, h) ls -> square os i ->
  exists m A h1 la, look_mat os i = Ok m /\ mat_copy (e_reorder e) m h = Ok (A, h1) /\ mat_owns A la /\ made_matrix A /\ holds h1 (la ++ concat ls) /\
    mo_val A = pm_copy (e_reorder e) (mo_val m).
Proof.
  intros I K. destruct (square_inv os h ls i I K) as (m & E & O & (NA & ER & EG)). destruct I as (_ & _ & H).
  destruct (mat_copy_ok (e_reorder e) m _ h _ O H) as (A & h1 & la & E1 & OA & H1 & EN & EV & Er & Ec).
  assert (EV' : mo_val A = pm_copy (e_reorder e) (mo_val m)) by (destruct (mo_A m); [contradiction|assumption|assumption]).
  exists m, A, h1, la. split; [exact E|]. split; [exact E1|]. split; [exact OA|]. split; [|split; [exact H1|exact EV']].
  split; [tauto|]. split; [congruence|]. rewrite EV'. exact EG.
Qed.

(** A solver made from parts *)
Lemma sol_owns_intro c s lo la ls lb : op_owns (so_op s) lo -> mat_owns (so_A s) la -> handle_owns c s ls -> shell_owns s lb -> sol_owns c s (lb ++ ls ++ la ++ lo).
Proof. intros. exists lo, la, ls, lb. conjs. Qed.

Lemma no_shell s : so_smooth s = no_smooth -> shell_owns s [].
Proof. intros E. left. rewrite E. now split. Qed.

(** The step that constructs a solver object: it succeeds and the object owns what was made. *)
Definition constructs (e : env) (os : list (option obj)) (h : heap) (ls : list (list (Z * hobj))) (op : lop) (c : class) (P : solobj -> list (Z * hobj) -> Prop) : Prop :=
  exists s h' l, lstep e (os, h) op = Ok (os ++ [Some (OSol c s)], h') /\ sol_owns c s l /\ holds h' (l ++ concat ls) /\ P s l.

Definition handle_of (f : fn) (ps : list (param * value)) (A : parmat) (s : solobj) (l : list (Z * hobj)) : Prop :=
  mo_A (so_A s) <> Null /\ mo_val (so_A s) = A /\ so_solve s = f /\ op_comm (so_op s) = true /\
  exists a, so_solver s = Live a /\ In (a, HSolver (HSol f ps (Some A) None)) l.

Lemma amg_step e os h ls i iter tol verbose m : inv (os, h) ls -> square os i -> look_mat os i = Ok m ->
  constructs e os h ls (LAMG i iter tol verbose) AMG (handle_of FnAMG (amg_params (e_quarter e) iter tol verbose) (pm_copy (e_reorder e) (mo_val m))).
Proof.
  intros I K Em. destruct (square_copy e os h ls i I K) as (m' & A & h1 & la & E & E1 & OA & MA & H1 & EV). assert (m' = m) by congruence. subst m'.
  destruct (amg_make_ok (e_quarter e) A la iter tol verbose h1 _ OA MA H1) as (s & h2 & lo & a & E2 & Oo & (EA & _ & _ & _ & EF & Cm & _) & Es & Sm & H2).
  eexists s, h2, ([] ++ [(a, _)] ++ la ++ lo). unfold lstep. rewrite E. cbn [bind]. rewrite E1. cbn [bind]. rewrite E2. cbn [bind]. split; [reflexivity|]. subst A.
  split; [|split; [cbn [app]; cbn [app] in H2; rewrite <- !app_assoc; exact H2|]].
  - apply sol_owns_intro; try assumption; [|now apply no_shell]. right. eexists a, _. split; [exact Es|]. split; [reflexivity|]. split; [apply MA|]. left. split; [reflexivity|assumption].
  - split; [apply MA|]. split; [exact EV|]. injection EF as _ _ _ E4. split; [exact E4|]. split; [exact Cm|]. exists a. split; [exact Es|]. rewrite EV. now left.
Qed.

Lemma cg_step e os h ls i iter tol verbose m : inv (os, h) ls -> square os i -> look_mat os i = Ok m ->
  constructs e os h ls (LCG i iter tol verbose) CG (handle_of FnPCG (cg_params iter tol verbose) (pm_copy (e_reorder e) (mo_val m))).
Proof.
  intros I K Em. destruct (square_copy e os h ls i I K) as (m' & A & h1 & la & E & E1 & OA & MA & H1 & EV). assert (m' = m) by congruence. subst m'.
  destruct (cg_make_ok A la iter tol verbose h1 _ OA MA H1) as (s & h2 & lo & a & E2 & Oo & (EA & _ & _ & _ & EF & Cm & _) & Es & Sm & H2).
  eexists s, h2, ([] ++ [(a, _)] ++ la ++ lo). unfold lstep. rewrite E. cbn [bind]. rewrite E1. cbn [bind]. rewrite E2. cbn [bind]. split; [reflexivity|]. subst A.
  split; [|split; [cbn [app]; cbn [app] in H2; rewrite <- !app_assoc; exact H2|]].
  - apply sol_owns_intro; try assumption; [|now apply no_shell]. right. eexists a, _. split; [exact Es|]. split; [reflexivity|]. split; [apply MA|]. right. left. split; [reflexivity|assumption].
  - split; [apply MA|]. split; [exact EV|]. injection EF as _ _ _ E4. split; [exact E4|]. split; [exact Cm|]. exists a. split; [exact Es|]. rewrite EV. now left.
Qed.

Lemma sails_step e os h ls i verbose reuse sym load threshold filter levels m : inv (os, h) ls -> square os i -> look_mat os i = Ok m ->
  constructs e os h ls (LSails i verbose reuse sym load threshold filter levels) Sails
    (handle_of FnSails (sails_params (e_trunc e) verbose reuse sym load threshold filter levels) (pm_copy (e_reorder e) (mo_val m))).
Proof.
  intros I K Em. destruct (square_copy e os h ls i I K) as (m' & A & h1 & la & E & E1 & OA & MA & H1 & EV). assert (m' = m) by congruence. subst m'.
  destruct (sails_make_ok (e_trunc e) A la verbose reuse sym load threshold filter levels h1 _ OA MA H1) as (s & h2 & lo & a & E2 & Oo & (EA & _ & _ & _ & EF & Cm & _) & Es & Sm & H2).
  eexists s, h2, ([] ++ [(a, _)] ++ la ++ lo). unfold lstep. rewrite E. cbn [bind]. rewrite E1. cbn [bind]. rewrite E2. cbn [bind]. split; [reflexivity|]. subst A.
  split; [|split; [cbn [app]; cbn [app] in H2; rewrite <- !app_assoc; exact H2|]].
  - apply sol_owns_intro; try assumption; [|now apply no_shell]. right. eexists a, _. split; [exact Es|]. split; [reflexivity|]. split; [apply MA|]. right. right. split; [reflexivity|]. split; [assumption|reflexivity].
  - split; [apply MA|]. split; [exact EV|]. injection EF as _ _ _ E4. split; [exact E4|]. split; [exact Cm|]. exists a. split; [exact Es|]. rewrite EV. now left.
Qed.

Definition diag_of (A : parmat) (s : solobj) (l : list (Z * hobj)) : Prop :=
  mo_A (so_A s) <> Null /\ mo_val (so_A s) = A /\ so_solve s = FnDiag /\ op_comm (so_op s) = true.

Lemma diag_step e os h ls i iter tol verbose m : inv (os, h) ls -> square os i -> look_mat os i = Ok m ->
  constructs e os h ls (LDiag i iter tol verbose) Diag (diag_of (pm_copy (e_reorder e) (mo_val m))).
Proof.
  intros I K Em. destruct (square_copy e os h ls i I K) as (m' & A & h1 & la & E & E1 & OA & MA & H1 & EV). assert (m' = m) by congruence. subst m'.
  destruct (diag_make_ok A la iter tol verbose h1 _ OA MA H1) as (s & h2 & lo & E2 & Oo & (EA & _ & _ & _ & EF & Cm & _) & Es & Sm & H2).
  exists s, h2, ([] ++ [] ++ la ++ lo). unfold lstep. rewrite E. cbn [bind]. rewrite E1. cbn [bind]. rewrite E2. cbn [bind]. split; [reflexivity|]. subst A.
  split; [|split; [cbn [app]; rewrite <- !app_assoc; exact H2|]].
  - apply sol_owns_intro; try assumption; [|now apply no_shell]. left. split; [exact Es|]. split; [reflexivity|]. right. split; [assumption|apply MA].
  - split; [apply MA|]. split; [exact EV|]. injection EF as _ _ _ E4. split; [exact E4|exact Cm].
Qed.

Lemma base_step e os h ls i m : inv (os, h) ls -> square os i -> look_mat os i = Ok m ->
  constructs e os h ls (LBase i) Base (fun s _ => so_solve s = FnNone /\ op_comm (so_op s) = true).
Proof.
  intros I K Em. destruct (square_copy e os h ls i I K) as (m' & A & h1 & la & E & E1 & OA & MA & H1 & EV). assert (m' = m) by congruence. subst m'.
  destruct (base_make_ok A la h1 _ OA MA H1) as (s & h2 & lo & E2 & Oo & (EA & _ & _ & _ & EF & Cm & _) & Es & Sm & H2).
  exists s, h2, ([] ++ [] ++ la ++ lo). unfold lstep. rewrite E. cbn [bind]. rewrite E1. cbn [bind]. rewrite E2. cbn [bind]. split; [reflexivity|]. subst A.
  split; [|split; [cbn [app]; rewrite <- !app_assoc; exact H2|]].
  - apply sol_owns_intro; try assumption; [|now apply no_shell]. left. split; [exact Es|]. split; [reflexivity|]. now left.
  - injection EF as _ _ _ E4. split; [exact E4|exact Cm].
Qed.

Definition smoother_of (type times : Z) (norms : list T) (weight omega : T) (A : parmat) (s : solobj) (l : list (Z * hobj)) : Prop :=
  mo_A (so_A s) <> Null /\ mo_val (so_A s) = A /\ op_comm (so_op s) = true /\ exists a, so_smooth s = Smooth type times weight omega (Live a) norms.

Lemma smooth_step e os h ls i type times weight omega m norms st : inv (os, h) ls -> square os i -> look_mat os i = Ok m ->
  l1_norms (e_half e) (e_ratio e) type (pm_copy (e_reorder e) (mo_val m)) [] = Ok (norms, st) ->
  constructs e os h ls (LSmooth i type times weight omega) Smoother (smoother_of type times norms weight omega (pm_copy (e_reorder e) (mo_val m))).
Proof.
  intros I K Em EN. destruct (square_copy e os h ls i I K) as (m' & A & h1 & la & E & E1 & OA & MA & H1 & EV). assert (m' = m) by congruence. subst m'.
  destruct (smoother_make_ok (e_half e) (e_ratio e) A la type times weight omega norms h1 _ OA MA H1) as (s & h2 & lo & a & E2 & Oo & (EA & _ & _ & _ & EF & Cm & _) & Es & Sm & H2).
  { exists st. now rewrite EV. }
  exists s, h2, ([(a, HVector (b_id (op_rs (so_op s))) None)] ++ [] ++ la ++ lo). unfold lstep. rewrite E. cbn [bind]. rewrite E1. cbn [bind]. rewrite E2. cbn [bind]. split; [reflexivity|]. subst A.
  split; [|split; [cbn [app]; rewrite <- !app_assoc; exact H2|]].
  - apply sol_owns_intro; try assumption.
    + left. split; [exact Es|]. split; [reflexivity|]. now left.
    + right. exists a. rewrite Sm. split; [reflexivity|]. split; [exact Cm|reflexivity].
  - split; [apply MA|]. split; [exact EV|]. split; [exact Cm|]. now exists a.
Qed.

(** Constructing a solver keeps the invariant. *)
Lemma constructs_ok e os h ls op c P : inv (os, h) ls -> constructs e os h ls op c P -> (forall n k, from op n k = if k <? n then Some k else None) ->
  exists st' ls', lstep e (os, h) op = Ok st' /\ inv st' ls' /\ frame op os (fst st') ls ls'.
Proof.
  intros I (s & h' & l & E & O & H' & _) F. exists (os ++ [Some (OSol c s)], h'), (ls ++ [l]). split; [exact E|]. split; [exact (inv_made os h ls (OSol c s) l h' I O H')|]. apply frame_made; [apply I|exact F].
Qed.

Lemma alike_looks (os : list (option obj)) i j : alike os i j -> exists a b, look os i = Ok a /\ look os j = Ok b /\ same_class a b.
Proof.
  unfold alike. destruct (look os i) as [a|]; [|intros []]. destruct (look os j) as [b|]; [|destruct a; intros []]. intros K. exists a, b. split; [reflexivity|]. split; [reflexivity|].
  destruct a, b; exact K.
Qed.

Lemma same_class_sym (a b : obj) : same_class a b -> same_class b a.
Proof. destruct a, b; cbn; auto. Qed.


Lemma upd_frame {X} (d : X) (l : list X) i v k : 0 <= i < zlen l -> 0 <= k < zlen l -> i <> k -> zn d (upd l (Z.to_nat i) v) k = zn d l k.
Proof.
  intros Hi Hk N. rewrite zn_upd by lia. destruct (Z.eqb_spec i k), (Z.eqb_spec k i); try lia; reflexivity.
Qed.

(** Every allowed operation succeeds, keeps the invariant, and keeps the objects that stay or are
    moved. *)
Lemma step_ok e os h ls op : inv (os, h) ls -> allowed e os op ->
  exists st' ls', lstep e (os, h) op = Ok st' /\ inv st' ls' /\ frame op os (fst st') ls ls'.
Proof.
  intros I K. pose proof I as (L & O & H). cbn [fst snd] in L, O, H. destruct op as [rs cs D F cm|l part| | |c|i iter tol verbose|i verbose reuse sym load threshold filter levels|i iter tol verbose|i iter tol verbose|i type times weight omega|i|i|i|i j|i j|i j|i]; cbn [allowed] in K.
  - destruct K as (A & E). destruct (mat_make_ok (e_reorder e) rs cs D F cm A h _ E H) as (m & h' & l & E1 & Om & H' & _). unfold lstep. rewrite E1. cbn [bind]. eexists _, (ls ++ [l]). split; [reflexivity|]. split; [exact (inv_made os h ls (OMat m) l h' I Om H')|now apply frame_made].
  - destruct K as (n & E). destruct (vec_make_ok l part n h _ E H) as (v & h' & lv & E1 & Ov & H' & _). unfold lstep. rewrite E1. cbn [bind]. eexists _, (ls ++ [lv]). split; [reflexivity|]. split; [exact (inv_made os h ls (OVec v) lv h' I Ov H')|now apply frame_made].
  - destruct (mat_default_ok h _ H) as (H' & Om). unfold lstep. destruct (mat_default h) as (m, h'). eexists _, (ls ++ [[]]). split; [reflexivity|]. split; [exact (inv_made os h ls (OMat m) [] h' I Om H')|now apply frame_made].
  - unfold lstep. cbn [vec_default store]. eexists _, (ls ++ [[]]). split; [reflexivity|]. split; [|now apply frame_made]. refine (inv_made os h ls (OVec _) [] _ I _ H). left. now split.
  - destruct (sol_default_ok c h _ H) as (H' & Om). unfold lstep. destruct (sol_default h) as (m, h'). eexists _, (ls ++ [[]]). split; [reflexivity|]. split; [exact (inv_made os h ls (OSol c m) [] h' I Om H')|now apply frame_made].
  - destruct (square_inv os h ls i I K) as (m & Em & _). exact (constructs_ok e os h ls _ _ _ I (amg_step e os h ls i iter tol verbose m I K Em) (fun _ _ => eq_refl)).
  - destruct (square_inv os h ls i I K) as (m & Em & _). exact (constructs_ok e os h ls _ _ _ I (sails_step e os h ls i verbose reuse sym load threshold filter levels m I K Em) (fun _ _ => eq_refl)).
  - destruct (square_inv os h ls i I K) as (m & Em & _). exact (constructs_ok e os h ls _ _ _ I (cg_step e os h ls i iter tol verbose m I K Em) (fun _ _ => eq_refl)).
  - destruct (square_inv os h ls i I K) as (m & Em & _). exact (constructs_ok e os h ls _ _ _ I (diag_step e os h ls i iter tol verbose m I K Em) (fun _ _ => eq_refl)).
  - destruct K as (K & N). destruct (square_inv os h ls i I K) as (m & Em & _). destruct (N m Em) as ((norms, st) & EN). exact (constructs_ok e os h ls _ _ _ I (smooth_step e os h ls i type times weight omega m norms st I K Em EN) (fun _ _ => eq_refl)).
  - destruct (square_inv os h ls i I K) as (m & Em & _). exact (constructs_ok e os h ls _ _ _ I (base_step e os h ls i m I K Em) (fun _ _ => eq_refl)).
  - (* copy *) destruct K as (o & Eo & Ko). pose proof (look_inv _ _ _ Eo) as (Hi & Zo). pose proof (O i Hi) as Oo. rewrite Zo in Oo.
    destruct (copy_ok (e_reorder e) o _ h _ Oo Ko H) as (o' & h' & l' & E1 & O' & H'). unfold lstep. rewrite Eo. cbn [bind]. rewrite E1. cbn [bind].
    eexists _, (ls ++ [l']). split; [reflexivity|]. split; [exact (inv_made os h ls o' l' h' I O' H')|now apply frame_made].
  - (* move *) destruct K as (o & Eo & Ko). pose proof (look_inv _ _ _ Eo) as (Hi & Zo). pose proof (O i Hi) as Oo. rewrite Zo in Oo.
    unfold lstep. rewrite Eo. cbn [bind]. rewrite (move_eq o h Ko). destruct (fresh_ok o h _ H) as (H1 & O1). rewrite set_ok by lia. cbn [bind].
    destruct (concat_pick ls i ltac:(lia)) as (R & P & Q).
    eexists _, (upd ls (Z.to_nat i) [] ++ [zn [] ls i]). split; [reflexivity|]. split.
    + assert (HR : holds (snd (fresh o h)) (concat (upd ls (Z.to_nat i) []) ++ zn [] ls i)).
      { eapply holds_perm; [exact H1|]. eapply perm_trans; [exact P|]. eapply perm_trans; [apply Permutation_app_comm|]. apply Permutation_app_tail. apply Permutation_sym. exact (Q []). }
      unfold inv. cbn [fst snd]. split; [|split].
      * rewrite !zlen_app, !zlen_upd. change (zlen [Some o]) with 1. change (zlen [zn [] ls i]) with 1. lia.
      * intros k Hk. rewrite zlen_app, zlen_upd in Hk. change (zlen [Some o]) with 1 in Hk. destruct (Z.eq_dec k (zlen os)) as [->|N].
        -- rewrite !zn_app_r by (rewrite ?zlen_upd; lia). rewrite !zlen_upd, L. replace (zlen os - zlen os) with 0 by lia. exact Oo.
        -- rewrite !zn_app_l by (rewrite ?zlen_upd; lia). rewrite !zn_upd by lia. destruct (Z.eqb_spec i k), (Z.eqb_spec k i); try lia; [exact O1|apply O; lia].
      * rewrite concat_app. cbn [concat]. rewrite app_nil_r. exact HR.
    + intros k k0 Hk T0 Hk0. cbn [from] in T0. cbn [fst]. rewrite zlen_app, zlen_upd. change (zlen [Some o]) with 1. destruct (Z.eqb_spec k (zlen os)) as [->|N].
      * injection T0 as <-. split; [lia|]. rewrite !zn_app_r by (rewrite ?zlen_upd; lia). rewrite !zlen_upd, L. replace (zlen os - zlen os) with 0 by lia. split; [symmetry; exact Zo|reflexivity].
      * destruct (Z.eqb_spec k i); [discriminate|]. injection T0 as <-. split; [lia|]. rewrite !zn_app_l by (rewrite ?zlen_upd; lia). split; apply upd_frame; lia.
  - (* copy assignment *) destruct K as (K & Kc). destruct (alike_looks os i j K) as (a & b & Ea & Eb & KC). pose proof (look_inv _ _ _ Ea) as (Hi & Za). pose proof (look_inv _ _ _ Eb) as (Hj & Zb).
    pose proof (O i Hi) as Oa. rewrite Za in Oa. pose proof (O j Hj) as Ob. rewrite Zb in Ob.
    unfold lstep. rewrite Ea. cbn [bind]. rewrite Eb. cbn [bind].
    destruct (copy_ok (e_reorder e) b _ h _ Ob (Kc b Eb) H) as (c & h1 & lc & E1 & Oc & H1). rewrite E1. cbn [bind].
    assert (KC' : same_class a c).
    { apply copy_class in E1. destruct a, b, c; cbn in *; try contradiction; try exact Logic.I; congruence. }
    destruct (concat_pick ls i ltac:(lia)) as (R & P & Q).
    destruct (assign_ok a c (zn [] ls i) h1 (lc ++ R) KC' Oa) as (h2 & E2 & H2).
    { eapply holds_perm; [exact H1|]. eapply perm_trans; [apply Permutation_app_head; exact P|]. apply Permutation_app_swap_app. }
    rewrite E2. cbn [bind]. rewrite set_ok by lia. cbn [bind]. eexists _, (upd ls (Z.to_nat i) lc). split; [reflexivity|]. split.
    + apply (inv_set os h ls i (Some c) lc h2 I Hi Oc). eapply holds_perm; [exact H2|]. apply Permutation_sym, Q.
    + intros k k0 Hk T0 Hk0. cbn [from] in T0. cbn [fst]. rewrite zlen_upd. destruct (Z.eqb_spec k i); [discriminate|]. injection T0 as <-. split; [lia|]. split; apply upd_frame; lia.
  - (* move assignment *) destruct K as (K & Km). destruct (alike_looks os i j K) as (a & b & Ea & Eb & KC). pose proof (look_inv _ _ _ Ea) as (Hi & Za). pose proof (look_inv _ _ _ Eb) as (Hj & Zb).
    pose proof (O i Hi) as Oa. rewrite Za in Oa. pose proof (O j Hj) as Ob. rewrite Zb in Ob.
    unfold lstep. rewrite Eb. cbn [bind]. rewrite (move_eq b h (Km b Eb)). destruct (fresh_ok b h _ H) as (H1 & O1). rewrite set_ok by lia. cbn [bind].
    destruct (concat_pick ls j ltac:(lia)) as (R & P & Q).
    (** after the move: object j is fresh and b is held aside *)
    set (os1 := upd os (Z.to_nat j) (Some (fst (fresh b h)))). set (ls1 := upd ls (Z.to_nat j) []).
    assert (L1 : zlen ls1 = zlen os1) by (unfold ls1, os1; now rewrite !zlen_upd).
    assert (Hos1 : zlen os1 = zlen os) by (unfold os1; now rewrite zlen_upd).
    assert (O1' : forall k, 0 <= k < zlen os1 -> owns (zn None os1 k) (zn [] ls1 k)).
    { intros k Hk. unfold os1, ls1 in *. rewrite zlen_upd in Hk. rewrite !zn_upd by lia. destruct (Z.eqb_spec j k), (Z.eqb_spec k j); try lia; [exact O1|apply O; lia]. }
    assert (H1' : holds (snd (fresh b h)) (zn [] ls j ++ concat ls1)).
    { eapply holds_perm; [exact H1|]. eapply perm_trans; [exact P|]. apply Permutation_app_head. apply Permutation_sym. exact (Q []). }
    assert (Et : exists t, look os1 i = Ok t /\ same_class t b).
    { unfold os1. destruct (Z.eq_dec i j) as [->|N].
      - exists (fst (fresh b h)). split; [apply look_ok; [now rewrite zlen_upd|]; rewrite zn_upd by lia; now rewrite Z.eqb_refl|]. now destruct b.
      - exists a. split; [apply look_ok; [now rewrite zlen_upd|]; rewrite upd_frame by lia; exact Za|exact KC]. }
    destruct Et as (t & Et & KCt). fold os1. rewrite Et. cbn [bind]. pose proof (look_inv _ _ _ Et) as (Hi1 & Zt). pose proof (O1' i Hi1) as Ot. rewrite Zt in Ot.
    destruct (concat_pick ls1 i ltac:(lia)) as (R1 & P1 & Q1).
    destruct (assign_ok t b (zn [] ls1 i) (snd (fresh b h)) (zn [] ls j ++ R1) KCt Ot) as (h2 & E2 & H2).
    { eapply holds_perm; [exact H1'|]. eapply perm_trans; [apply Permutation_app_head; exact P1|]. apply Permutation_app_swap_app. }
    rewrite E2. cbn [bind]. rewrite set_ok by lia. cbn [bind]. eexists _, (upd ls1 (Z.to_nat i) (zn [] ls j)). split; [reflexivity|]. split.
    + unfold inv. cbn [fst snd]. split; [now rewrite !zlen_upd|]. split.
      * intros k Hk. rewrite zlen_upd in Hk. rewrite !zn_upd by lia. destruct (Z.eqb_spec i k), (Z.eqb_spec k i); try lia; [exact Ob|apply O1'; lia].
      * eapply holds_perm; [exact H2|]. apply Permutation_sym, Q1.
    + intros k k0 Hk T0 Hk0. cbn [from] in T0. cbn [fst]. rewrite zlen_upd. destruct (Z.eqb_spec k i) as [->|N].
      * injection T0 as <-. split; [lia|]. rewrite !zn_upd by lia. rewrite !Z.eqb_refl. split; [symmetry; exact Zb|reflexivity].
      * destruct (Z.eqb_spec k j); [discriminate|]. injection T0 as <-. split; [lia|]. rewrite !upd_frame by lia. unfold os1, ls1. rewrite !upd_frame by lia. now split.
  - (* swap *) destruct (alike_looks os i j K) as (a & b & Ea & Eb & KC). pose proof (look_inv _ _ _ Ea) as (Hi & Za). pose proof (look_inv _ _ _ Eb) as (Hj & Zb).
    pose proof (O i Hi) as Oa. rewrite Za in Oa. pose proof (O j Hj) as Ob. rewrite Zb in Ob.
    unfold lstep. rewrite Ea. cbn [bind]. rewrite Eb. cbn [bind]. rewrite (swap_eq a b KC). cbn [bind]. rewrite set_ok by lia. cbn [bind]. rewrite set_ok by (rewrite ?zlen_upd; lia). cbn [bind].
    destruct (concat_pick ls i ltac:(lia)) as (R & P & Q). set (ls1 := upd ls (Z.to_nat i) (zn [] ls j)). assert (L1 : zlen ls1 = zlen ls) by apply zlen_upd.
    destruct (concat_pick ls1 j ltac:(lia)) as (R1 & P1 & Q1).
    eexists _, (upd ls1 (Z.to_nat j) (zn [] ls i)). split; [reflexivity|]. split.
    + unfold inv. cbn [fst snd]. split; [now rewrite !zlen_upd, L1|]. split.
      * intros k Hk. rewrite !zlen_upd in Hk. destruct (Z.eq_dec j k) as [<-|N1].
        -- rewrite !zn_upd by (rewrite ?zlen_upd; lia). rewrite !Z.eqb_refl. exact Oa.
        -- rewrite (upd_frame None), (upd_frame []) by (rewrite ?zlen_upd; lia). unfold ls1. rewrite !zn_upd by lia. destruct (Z.eqb_spec i k), (Z.eqb_spec k i); try lia; [exact Ob|apply O; lia].
      * destruct (Z.eq_dec i j) as [->|N].
        -- eapply holds_perm; [exact H|]. eapply perm_trans; [exact P|]. apply Permutation_sym. eapply perm_trans; [exact (Q1 (zn [] ls j))|]. apply Permutation_app_head.
           assert (Zj : zn [] ls1 j = zn [] ls j) by (unfold ls1; rewrite zn_upd by lia; now rewrite Z.eqb_refl). rewrite Zj in P1.
           apply (Permutation_app_inv_l (zn [] ls j)). eapply perm_trans; [apply Permutation_sym; exact P1|]. exact (Q (zn [] ls j)).
        -- eapply holds_perm; [exact H|]. eapply perm_trans; [exact P|]. apply Permutation_sym. eapply perm_trans; [exact (Q1 (zn [] ls i))|]. apply Permutation_app_head.
           assert (Zj : zn [] ls1 j = zn [] ls j) by (unfold ls1; now rewrite upd_frame by lia). rewrite Zj in P1.
           apply (Permutation_app_inv_l (zn [] ls j)). eapply perm_trans; [apply Permutation_sym; exact P1|]. exact (Q (zn [] ls j)).
    + intros k k0 Hk T0 Hk0. cbn [from] in T0. cbn [fst]. rewrite !zlen_upd. destruct (Z.eqb_spec k i) as [->|N].
      * injection T0 as <-. split; [lia|]. destruct (Z.eq_dec i j) as [<-|N].
        -- rewrite !zn_upd by (rewrite ?zlen_upd; lia). rewrite !Z.eqb_refl. split; [symmetry; exact Za|reflexivity].
        -- rewrite (upd_frame None), (upd_frame []) by (rewrite ?zlen_upd; lia). unfold ls1. rewrite !zn_upd by lia. rewrite !Z.eqb_refl. split; [symmetry; exact Zb|reflexivity].
      * destruct (Z.eqb_spec k j) as [->|N'].
        -- injection T0 as <-. split; [lia|]. rewrite !zn_upd by (rewrite ?zlen_upd; lia). rewrite !Z.eqb_refl. split; [symmetry; exact Za|reflexivity].
        -- injection T0 as <-. split; [lia|]. rewrite !upd_frame by (rewrite ?zlen_upd; lia). unfold ls1. rewrite !upd_frame by lia. now split.
  - (* destruction *) destruct K as (o & Eo). pose proof (look_inv _ _ _ Eo) as (Hi & Zo). pose proof (O i Hi) as Oo. rewrite Zo in Oo.
    unfold lstep. rewrite Eo. cbn [bind]. destruct (concat_pick ls i ltac:(lia)) as (R & P & Q).
    destruct (destroy_ok o _ h R Oo) as (h' & E1 & H'). { eapply holds_perm; [exact H|exact P]. }
    rewrite E1. cbn [bind]. rewrite set_ok by lia. cbn [bind]. eexists _, (upd ls (Z.to_nat i) []). split; [reflexivity|]. split.
    + apply (inv_set os h ls i None [] h' I Hi eq_refl). eapply holds_perm; [exact H'|]. apply Permutation_sym. exact (Q []).
    + intros k k0 Hk T0 Hk0. cbn [from] in T0. cbn [fst]. rewrite zlen_upd. destruct (Z.eqb_spec k i); [discriminate|]. injection T0 as <-. split; [lia|]. split; apply upd_frame; lia.
Qed.

(* ---------------------------------------------------------------- reachable states *)

Lemma reach_inv e st : reach e st -> exists ls, inv st ls.
Proof.
  induction 1 as [|st op st' _ (ls & I) K E].
  - exists []. split; [reflexivity|]. split; [intros k Hk; change (0 <= k < 0) in Hk; lia|apply Permutation_refl].
  - destruct st as (os, h). destruct (step_ok e os h ls op I K) as (st2 & ls' & E2 & I' & _). exists ls'. replace st' with st2 by congruence. exact I'.
Qed.

Lemma reach_step_ok (e : env (S := S)) os h op : reach e (os, h) -> allowed e os op -> exists st', lstep e (os, h) op = Ok st' /\ reach e st'.
Proof.
  intros Rc K. destruct (reach_inv _ _ Rc) as (ls & I). destruct (step_ok e os h ls op I K) as (st' & ls' & E & _). exists st'. split; [exact E|]. exact (reach_step e (os, h) op st' Rc K E).
Qed.

Lemma reach_released (e : env (S := S)) os h : reach e (os, h) -> (forall o, In o os -> o = None) -> forall x, In x (h_objs h) -> x = None.
Proof.
  intros Rc N x Ix. destruct (reach_inv _ _ Rc) as (ls & L & O & H). cbn [fst snd] in *.
  assert (E : concat ls = []).
  { apply concat_nil_Forall. apply Forall_forall. intros l Il. destruct (In_zn [] ls l Il) as (k & Hk & <-). rewrite L in Hk. specialize (O k Hk). rewrite (N (zn None os k)) in O by (apply zn_In; lia). exact O. }
  rewrite E in H. unfold holds in H. apply Permutation_sym, Permutation_nil in H.
  destruct x as [o|]; [|reflexivity]. destruct (In_zn None (h_objs h) (Some o) Ix) as (k & Hk & Ek).
  assert (I : In (k, o) (live (h_objs h))) by (apply In_live; rewrite (get_ok None) by lia; now rewrite Ek). now rewrite H in I.
Qed.

Lemma inv_at os h ls k o : inv (os, h) ls -> look os k = Ok o -> owns (Some o) (zn [] ls k) /\ incl (zn [] ls k) (concat ls) /\ 0 <= k < zlen os.
Proof.
  intros (L & O & _) E. cbn [fst snd] in *. apply look_inv in E. destruct E as (Hk & E). split; [|split; [|exact Hk]].
  - specialize (O k Hk). now rewrite E in O.
  - intros x Ix. apply in_concat. exists (zn [] ls k). split; [apply zn_In; lia|exact Ix].
Qed.

Lemma reach_mat (e : env (S := S)) os h k m : reach e (os, h) -> look os k = Ok (OMat m) -> mo_A m <> Null -> mat_deref h m = Ok (mo_val m).
Proof.
  intros Rc E N. destruct (reach_inv _ _ Rc) as (ls & I). destruct (inv_at _ _ _ _ _ I E) as (O & Ic & _). exact (mat_deref_in m _ h _ O (proj2 (proj2 I)) Ic N).
Qed.

Lemma reach_vec (e : env (S := S)) os h k v : reach e (os, h) -> look os k = Ok (OVec v) -> vo_p v <> Null -> vec_deref h v = Ok (b_val (vo_data v)).
Proof.
  intros Rc E N. destruct (reach_inv _ _ Rc) as (ls & I). destruct (inv_at _ _ _ _ _ I E) as (O & Ic & _). destruct I as (_ & _ & H). cbn [snd] in H.
  destruct O as [(E0 & _)|(a & n & E0 & _ & _ & El)]; [contradiction|]. unfold vec_deref. rewrite E0, (holds_deref h _ a _ H (Ic _ ltac:(rewrite El; now left))). cbn [bind]. now rewrite !Z.eqb_refl.
Qed.

(* ---------------------------------------------------------------- what hypre finds *)

Definition held (p : pointer) (l : list (Z * hobj)) : Prop := p = Null \/ exists a o, p = Live a /\ In (a, o) l.

Lemma held_deref h h' R R' l p : holds h R -> holds h' R' -> incl l R -> incl l R' -> held p l -> deref h p = deref h' p.
Proof.
  intros H H' I I' [->|(a & o & -> & Io)]; [reflexivity|]. rewrite (holds_deref h R a o H), (holds_deref h' R' a o H'); auto.
Qed.

Lemma op_held o l : op_owns o l -> held (op_x o) l /\ held (op_b o) l.
Proof.
  intros [(_ & -> & -> & _)|(_ & _ & _ & a & b & -> & -> & ->)]; [split; now left|]. split; right; eexists _, _; (split; [reflexivity|]); [right; now left|now left].
Qed.

Lemma mat_held m l : mat_owns m l -> held (mo_A m) l.
Proof.
  intros (lo & O & [(-> & _)|(a & -> & _ & ->)]); [now left|]. right. eexists _, _. split; [reflexivity|now left].
Qed.

Lemma held_incl p l l' : held p l -> incl l l' -> held p l'.
Proof. intros [->|(a & o & -> & I)] J; [now left|]. right. exists a, o. split; [reflexivity|now apply J]. Qed.

Lemma sol_held c s l : sol_owns c s l -> held (op_x (so_op s)) l /\ held (op_b (so_op s)) l /\ held (mo_A (so_A s)) l /\ held (so_solver s) l /\ held (sm_shell (so_smooth s)) l.
Proof.
  intros (lo & la & ls & lb & Oo & OA & OH & OS & ->). destruct (op_held _ _ Oo) as (Hx & Hb). pose proof (mat_held _ _ OA) as HA.
  assert (Hs : held (so_solver s) ls).
  { destruct OH as [(-> & _)|(a & t & -> & -> & _)]; [now left|]. right. eexists _, _. split; [reflexivity|now left]. }
  assert (Hm : held (sm_shell (so_smooth s)) lb).
  { destruct OS as [(-> & _)|(a & -> & _ & ->)]; [now left|]. right. eexists _, _. split; [reflexivity|now left]. }
  repeat split; eapply held_incl; try eassumption; intros x Ix; rewrite !in_app_iff; tauto.
Qed.

Lemma mat_deref_agree (h h' : heap) m : deref h (mo_A m) = deref h' (mo_A m) -> mat_deref h m = mat_deref h' m.
Proof. intros E. unfold mat_deref. now rewrite E. Qed.

Lemma sol_mult_agree c s (h h' : heap) : deref h (op_x (so_op s)) = deref h' (op_x (so_op s)) -> deref h (op_b (so_op s)) = deref h' (op_b (so_op s)) ->
  deref h (mo_A (so_A s)) = deref h' (mo_A (so_A s)) -> deref h (so_solver s) = deref h' (so_solver s) -> deref h (sm_shell (so_smooth s)) = deref h' (sm_shell (so_smooth s)) ->
  forall b x, sol_mult c s h b x = sol_mult c s h' b x.
Proof.
  intros Ex Eb EA Es Em b x. unfold sol_mult. rewrite Ex, Eb, Em, Es, (mat_deref_agree h h' (so_A s) EA). reflexivity.
Qed.

(** What an object gives does not depend on the rest of the heap. *)
Lemma sol_mult_frame c s l h h' R R' : sol_owns c s l -> holds h R -> holds h' R' -> incl l R -> incl l R' -> forall b x, sol_mult c s h b x = sol_mult c s h' b x.
Proof.
  intros O H H' I I'. destruct (sol_held c s l O) as (Hx & Hb & HA & Hs & Hm). apply sol_mult_agree; eapply held_deref; eassumption.
Qed.

Lemma op_deref o l h R : op_owns o l -> op_comm o = true -> holds h R -> incl l R ->
  deref h (op_x o) = Ok (HVector (b_id (op_rs o)) None) /\ deref h (op_b o) = Ok (HVector (b_id (op_cs o)) None).
Proof.
  intros [(C & _)|(_ & _ & _ & a & b & -> & -> & ->)] C' H I; [congruence|].
  split; apply (holds_deref h R _ _ H); apply I; [right; now left|now left].
Qed.

Lemma sol_mult_handle c s l h R f ps A : sol_owns c s l -> c <> Smoother -> holds h R -> incl l R -> handle_of f ps A s l -> f = FnAMG \/ f = FnPCG \/ f = FnSails ->
  forall b x, sol_mult c s h b x = Ok (ReqSolve (HSol f ps (Some A) None) A b).
Proof.
  intros (lo & la & ls & lb & Oo & OA & OH & OS & El) NS H I (NA & EV & Ef & Cm & a & Es & Ia) F b x.
  assert (Io : incl lo R) by (intros y Iy; apply I; rewrite El, !in_app_iff; tauto).
  assert (Ila : incl la R) by (intros y Iy; apply I; rewrite El, !in_app_iff; tauto).
  destruct (op_deref _ _ h R Oo Cm H Io) as (Dx & Db). unfold sol_mult. rewrite Dx, Db. cbn [bind].
  rewrite (mat_deref_in _ _ h R OA H Ila NA), EV, Es, Ef. rewrite (holds_deref h R _ _ H (I _ Ia)).
  destruct c; try contradiction; destruct F as [->|[->| ->]]; reflexivity.
Qed.

Lemma sol_mult_diag c s l h R A : sol_owns c s l -> c <> Smoother -> holds h R -> incl l R -> diag_of A s l -> forall b x, sol_mult c s h b x = Ok (ReqDiag A b).
Proof.
  intros (lo & la & ls & lb & Oo & OA & OH & OS & El) NS H I (NA & EV & Ef & Cm) b x.
  assert (Io : incl lo R) by (intros y Iy; apply I; rewrite El, !in_app_iff; tauto).
  assert (Ila : incl la R) by (intros y Iy; apply I; rewrite El, !in_app_iff; tauto).
  destruct (op_deref _ _ h R Oo Cm H Io) as (Dx & Db). unfold sol_mult. rewrite Dx, Db. cbn [bind].
  rewrite (mat_deref_in _ _ h R OA H Ila NA), EV, Ef. destruct c; try contradiction; reflexivity.
Qed.

Lemma sol_mult_smoother s l h R type times norms weight omega A : sol_owns Smoother s l -> holds h R -> incl l R -> smoother_of type times norms weight omega A s l -> norms <> [] ->
  forall b x, sol_mult Smoother s h b x = Ok (ReqRelax type times norms weight omega A b x).
Proof.
  intros (lo & la & ls & lb & Oo & OA & OH & OS & El) H I (NA & EV & Cm & a & Es) N b x.
  assert (Io : incl lo R) by (intros y Iy; apply I; rewrite El, !in_app_iff; tauto).
  assert (Ila : incl la R) by (intros y Iy; apply I; rewrite El, !in_app_iff; tauto).
  assert (Ilb : incl lb R) by (intros y Iy; apply I; rewrite El, !in_app_iff; tauto).
  destruct (op_deref _ _ h R Oo Cm H Io) as (Dx & Db). unfold sol_mult. rewrite Dx, Db. cbn [bind].
  rewrite (mat_deref_in _ _ h R OA H Ila NA), EV.
  destruct OS as [(E & _)|(a' & E & _ & ->)]; [rewrite Es in E; discriminate|]. rewrite E, (holds_deref h R _ _ H (Ilb _ (or_introl eq_refl))). cbn [bind]. rewrite Es. cbn [sm_norms sm_type sm_times sm_weight sm_omega].
  destruct norms as [|n ns]; [contradiction|]. rewrite zlen_cons. pose proof (zlen_nonneg ns). destruct (Z.eqb_spec (zlen ns + 1) 0); [lia|]. destruct (Z.eqb_spec (1 + zlen ns) 0); [lia|]. reflexivity.
Qed.

End Life.
