(** The statements of the properties of the parallel matrix product, from the lemmas about it. *)

From Coq Require Import ZArith List Bool Lia Permutation.
From Verif Require Import Base Scalar Spec Dense Sparse SumFacts LoopFacts CsrFacts Rows SortProofs Accum ProductProofs Par ParSpec ParProofs ParAddProofs ParSplitProofs ParLinks ParExamples
  Threads ThreadProofs HypreOps HypreSpec HypreThreads HypreExt HypreSplit HypreRows HypreProofs HypreValue.
Import ListNotations.
Open Scope Z_scope.

(* ---------------------------------------------------------------- ranges of the threads *)

Lemma thread_range_owner rows n i : 0 <= rows -> 0 < n -> 0 <= i < rows ->
  exists! t, 0 <= t < n /\ fst (thread_range rows n t) <= i < snd (thread_range rows n t).
Proof.
  intros Hr Hn Hi. destruct (tstart_owner rows n i Hr Hn Hi) as (t & Ht & Hi'). exists t. split.
  - split; [exact Ht|]. rewrite thread_range_eq by lia. exact Hi'.
  - intros s (Hs & Hi''). rewrite thread_range_eq in Hi'' by lia. exact (tstart_unique rows n t s i Hr Hn Hi' Hi'').
Qed.

Lemma thread_range_tiles rows n : 0 <= rows -> 0 < n ->
  fst (thread_range rows n 0) = 0 /\ snd (thread_range rows n (n - 1)) = rows /\
  (forall t, 0 <= t < n - 1 -> snd (thread_range rows n t) = fst (thread_range rows n (t + 1))) /\
  forall t, 0 <= t < n -> fst (thread_range rows n t) <= snd (thread_range rows n t).
Proof.
  intros Hr Hn. split; [rewrite thread_range_eq by lia; now apply tstart_0|]. split.
  - rewrite thread_range_eq by lia. cbn [snd]. replace (n - 1 + 1) with n by lia. now apply tstart_n.
  - split; intros t Ht; rewrite !thread_range_eq by lia; cbn [fst snd]; [reflexivity|]. now apply tstart_S.
Qed.

Lemma thread_range_even rows n s t : 0 <= rows -> 0 < n -> 0 <= s < n -> 0 <= t < n ->
  snd (thread_range rows n s) - fst (thread_range rows n s) <= snd (thread_range rows n t) - fst (thread_range rows n t) + 1.
Proof. intros Hr Hn Hs Ht. rewrite !thread_range_eq by lia. cbn [fst snd]. unfold tstart. lia. Qed.

(* ---------------------------------------------------------------- one rank *)

Section Links.
Context {S : scalar}.
Variables (srt : sorter) (bsearch : list Z -> Z -> Z -> Z) (reorder : csr S -> csr S).
Hypothesis Hsrt : sorts srt.
Hypothesis Hbs : finds bsearch.
Hypothesis Hre : reorders reorder.

Lemma row_entries_NoDup (A : csr S) i : NoDup (map fst (row_of A i)) -> NoDup (map ecol (row_entries A i)).
Proof. rewrite <- row_of_entries. unfold row_to_entries. now rewrite map_map. Qed.

(** The result does not depend on the threads, is a valid layout and repeats no column. *)
Lemma par_mult_threads (G : mat S) (A B : parmat S) ext : pm_valid A -> pm_valid B -> pm_cs A = pm_rs B -> extracted G A B ext ->
  exists C, (forall n sched, 0 < n -> par_mult n sched srt bsearch reorder ext A B = Ok C) /\
    pm_valid C /\ pm_rs C = pm_rs A /\ pm_cs C = pm_cs B /\
    forall i, 0 <= i < pm_rows C -> NoDup (map ecol (row_entries (pm_diag C) i)) /\ NoDup (map ecol (row_entries (pm_offd C) i)).
Proof.
  intros PA PB HAB HX. destruct (par_mult_exact srt bsearch reorder Hsrt Hbs Hre G A B ext PA PB HAB HX) as (cmC & mBC & C & _ & _ & Hrun & VC & E1 & E2 & E3 & E4 & E5 & VDC & VOC).
  exists C. split; [exact Hrun|]. split; [exact VC|]. split; [exact E1|]. split; [exact E2|]. intros i Hi.
  assert (Hr : c_rows (pm_diag A) = c_rows (pm_diag C)) by (rewrite (pv_drows A PA), (pv_drows C VC), E1; reflexivity).
  assert (Hi' : 0 <= i < c_rows (pm_diag A)) by (rewrite Hr; exact Hi).
  split.
  - rewrite E4. destruct (Hre _ VDC) as (_ & (_ & _ & _ & P)). specialize (P i Hi'). apply (Permutation_map ecol) in P. eapply Permutation_NoDup; [exact P|].
    apply row_entries_NoDup. rewrite row_of_rows by exact Hi'. unfold drow. apply acc_from_NoDup. unfold dinit. destruct (_ =? _); repeat constructor. intros [].
  - assert (ER : row_entries (pm_offd C) i = row_entries (csr_of_rows (c_rows (pm_diag A)) (zlen cmC) (orow A B (Dx A B ext) (Ox bsearch A B ext cmC) mBC)) i).
    { rewrite <- !filter_row_entries, E5; [reflexivity|exact VOC|exact Hi'|exact (pv_offd C VC)|]. rewrite (pv_orows C VC), <- (pv_drows C VC), <- Hr. exact Hi'. }
    rewrite ER. apply row_entries_NoDup. rewrite row_of_rows by exact Hi'. unfold orow. apply acc_from_NoDup. constructor.
Qed.

(** Other sizes are refused. *)
Lemma par_mult_refuses (A B : parmat S) ext n sched : pm_gcols A <> pm_grows B \/ c_cols (pm_diag A) <> c_rows (pm_diag B) ->
  par_mult n sched srt bsearch reorder ext A B = Fail FAssert.
Proof.
  intros H. unfold par_mult. replace (_ && _) with false; [reflexivity|]. symmetry. apply andb_false_iff. rewrite !Z.eqb_neq. exact H.
Qed.

(** One process owns all columns. *)
Lemma single_map (A : parmat S) : pm_valid A -> zn 0 (pm_cs A) 0 = 0 -> zn 0 (pm_cs A) 1 = zn 0 (pm_cs A) 2 -> pm_map A = [].
Proof.
  intros V H0 H1. destruct (pm_map A) as [|x l] eqn:E; [reflexivity|]. pose proof (pv_map A V 0) as H. rewrite E, zlen_cons in H. pose proof (zlen_nonneg l). lia.
Qed.

Lemma par_mult_single (R : ring_laws S) (A B : parmat S) : pm_valid A -> pm_valid B -> pm_cs A = pm_rs B ->
  zn 0 (pm_cs A) 0 = 0 -> zn 0 (pm_cs A) 1 = zn 0 (pm_cs A) 2 ->
  exists C, (forall n sched, 0 < n -> par_mult n sched srt bsearch reorder None A B = Ok C) /\
    pm_valid C /\ pm_rs C = pm_rs A /\ pm_cs C = pm_cs B /\
    forall i j, pm_mat C i j = mat_mul (pm_mat A) (pm_mat B) (pm_gcols A) i j.
Proof.
  intros VA VB HAB H0 H1. apply (par_mult_value srt bsearch reorder Hsrt Hbs Hre R (pm_mat B) A B None); auto. exact (single_map A VA H0 H1).
Qed.

(* ---------------------------------------------------------------- all ranks *)

Lemma ranks_same {A} p (f g : Z -> res A) : (forall r, 0 <= r < p -> f r = g r) -> ranks p f = ranks p g.
Proof.
  intros H. unfold ranks. apply foldM_ext. intros r st Hr. apply In_zrange in Hr. now rewrite H.
Qed.

(** The rows of a rank of the global matrix *)
Lemma world_local (R : ring_laws S) (Bs : list (parmat S)) r : 0 <= r < zlen Bs ->
  (forall q, 0 <= q < zlen Bs -> pm_valid (zn pm_none Bs q)) ->
  (forall q, 0 <= q < zlen Bs -> q <> r ->
     zn 0 (pm_rs (zn pm_none Bs q)) 1 <= zn 0 (pm_rs (zn pm_none Bs r)) 0 \/ zn 0 (pm_rs (zn pm_none Bs r)) 1 <= zn 0 (pm_rs (zn pm_none Bs q)) 0) ->
  forall i j, zn 0 (pm_rs (zn pm_none Bs r)) 0 <= i < zn 0 (pm_rs (zn pm_none Bs r)) 1 -> world_mat Bs i j = pm_mat (zn pm_none Bs r) i j.
Proof.
  intros Hr HV HD i j Hi. rewrite (world_mat_sum R).
  transitivity (sum_range 0 (zlen Bs) (fun q => if q =? r then pm_mat (zn pm_none Bs r) i j else s0)).
  - apply sum_range_ext. intros q Hq. destruct (Z.eqb_spec q r) as [->|N]; [reflexivity|]. apply pm_mat_out; [now apply HV|]. specialize (HD q Hq N). lia.
  - exact (sum_range_delta R 0 (zlen Bs) r (fun _ => pm_mat (zn pm_none Bs r) i j) Hr).
Qed.

Lemma par_mult_world (R : ring_laws S) (As Bs : list (parmat S)) (exts : list (option (csr S))) N :
  zlen Bs = zlen As -> zlen exts = zlen As ->
  (forall r A B ext, get As r = Ok A -> get Bs r = Ok B -> get exts r = Ok ext ->
     pm_valid A /\ pm_valid B /\ pm_cs A = pm_rs B /\ pm_gcols A = N /\ extracted (world_mat Bs) A B ext) ->
  (forall r q B B', r <> q -> get Bs r = Ok B -> get Bs q = Ok B' -> zn 0 (pm_rs B) 1 <= zn 0 (pm_rs B') 0 \/ zn 0 (pm_rs B') 1 <= zn 0 (pm_rs B) 0) ->
  exists Cs, (forall n sched, (forall r, 0 < n r) ->
      ranks (zlen As) (fun r => A <- get As r ;; B <- get Bs r ;; ext <- get exts r ;; par_mult (n r) (sched r) srt bsearch reorder ext A B) = Ok Cs) /\
    zlen Cs = zlen As /\
    (forall r A B C, get As r = Ok A -> get Bs r = Ok B -> get Cs r = Ok C -> pm_valid C /\ pm_rs C = pm_rs A /\ pm_cs C = pm_cs B) /\
    forall i j, world_mat Cs i j = mat_mul (world_mat As) (world_mat Bs) N i j.
Proof.
  intros LB LX H D. pose proof (zlen_nonneg As).
  assert (HV : forall r, 0 <= r < zlen As -> pm_valid (zn pm_none As r) /\ pm_valid (zn pm_none Bs r) /\ pm_cs (zn pm_none As r) = pm_rs (zn pm_none Bs r) /\ pm_gcols (zn pm_none As r) = N /\ extracted (world_mat Bs) (zn pm_none As r) (zn pm_none Bs r) (zn None exts r)).
  { intros r Hr. apply (H r); [apply get_ok; lia|apply get_ok; lia|apply get_ok; lia]. }
  destruct (ranks_ex pm_none (fun r C => (forall n sched, 0 < n -> par_mult n sched srt bsearch reorder (zn None exts r) (zn pm_none As r) (zn pm_none Bs r) = Ok C) /\ pm_valid C /\
      (pm_rs C = pm_rs (zn pm_none As r) /\ pm_cs C = pm_cs (zn pm_none Bs r)) /\ forall i j, pm_mat C i j = mat_mul (pm_mat (zn pm_none As r)) (world_mat Bs) N i j) (zlen As)
    (fun r => par_mult 1 (fun _ => []) srt bsearch reorder (zn None exts r) (zn pm_none As r) (zn pm_none Bs r))) as (Cs & EC & LC & HC).
  - lia.
  - intros r Hr. destruct (HV r Hr) as (V1 & V2 & E1 & E2 & X).
    destruct (par_mult_value srt bsearch reorder Hsrt Hbs Hre R (world_mat Bs) _ _ _ V1 V2 E1 X) as (C & Hrun & VC & C1 & C2 & HC).
    { intros k j Hk. apply (world_local R Bs r); [lia|intros q Hq; apply HV; lia| |exact Hk]. intros q Hq Nq. apply (D q r); [exact Nq|apply get_ok; lia|apply get_ok; lia]. }
    exists C. split; [now apply Hrun|]. split; [exact Hrun|]. split; [exact VC|]. split; [auto|]. rewrite <- E2. exact HC.
  - exists Cs. split.
    + intros n sched Hn. rewrite <- EC. apply ranks_same. intros r Hr. rewrite (get_ok pm_none) by lia. rewrite (get_ok pm_none) by lia. rewrite (get_ok None) by lia. cbn [bind].
      destruct (HC r Hr) as (Hrun & _). rewrite !Hrun by (auto; lia). reflexivity.
    + split; [exact LC|]. split.
      * intros r A B C EA EB EC'. apply (get_Ok_inv pm_none) in EA, EB, EC'. destruct EA as (Hr & ->). destruct EB as (_ & ->). destruct EC' as (_ & ->). destruct (HC r Hr) as (_ & V & (E1 & E2) & _). auto.
      * intros i j. rewrite (world_mat_sum R), LC. unfold mat_mul.
        rewrite (sum_range_ext 0 (zlen As) _ (fun r => sum_range 0 N (fun k => smul (pm_mat (zn pm_none As r) i k) (world_mat Bs k j)))) by (intros r Hr; destruct (HC r Hr) as (_ & _ & _ & G); apply G).
        rewrite (sum_range_swap R). apply sum_range_ext. intros k _. rewrite (world_mat_sum R As), (sum_range_scale_r R). reflexivity.
Qed.

End Links.

(* ---------------------------------------------------------------- an instance of the search *)

Fixpoint position (l : list Z) (v i : Z) : Z := match l with [] => -1 | x :: l => if x =? v then i else position l v (i + 1) end.
Definition linear_search (l : list Z) (v n : Z) : Z := position l v 0.

Lemma linear_search_finds : finds linear_search.
Proof.
  intros l k Inc Hk. unfold linear_search. assert (G : forall i, position l (zn 0 l k) i = i + k); [|now rewrite G].
  revert k Hk Inc. induction l as [|x l IH]; intros k Hk Inc i; [change (zlen (@nil Z)) with 0 in Hk; lia|]. rewrite zlen_cons in Hk. cbn [position].
  destruct (Z.eq_dec k 0) as [->|N]; [change (zn 0 (x :: l) 0) with x; rewrite Z.eqb_refl; lia|].
  pose proof (Inc 0 k ltac:(lia) ltac:(rewrite zlen_cons; lia)) as L. change (zn 0 (x :: l) 0) with x in L. destruct (Z.eqb_spec x (zn 0 (x :: l) k)) as [E|_]; [lia|].
  rewrite zn_cons_pos in * by lia. rewrite IH; [lia|lia|]. intros a b Ha Hb. specialize (Inc (a + 1) (b + 1) ltac:(lia) ltac:(rewrite zlen_cons; lia)). rewrite !zn_cons_pos in Inc by lia.
  replace (a + 1 - 1) with a in Inc by lia. replace (b + 1 - 1) with b in Inc by lia. exact Inc.
Qed.
