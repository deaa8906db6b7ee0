(** The products and RAP over all ranks, and functions that meet the contracts. *)

From Coq Require Import ZArith List Bool Lia Permutation.
From Verif Require Import Base Scalar Spec Dense Sparse SumFacts LoopFacts CsrFacts Rows SortProofs CooMore Accum ProductProofs TransposeProofs LilProofs Par ParSpec ParProofs ParAddProofs ParSplitProofs
  HypreOps HypreSpec HypreExt HypreProofs HypreValue HypreLinks HypreTranspose HypreTransposeSpec HypreSort HypreComm HypreTransposeProofs.
Import ListNotations.
Open Scope Z_scope.

Section Rap.
Context {S : scalar}.
Notation T := (car S).
Variables (srt : sorter) (bsearch : list Z -> Z -> Z -> Z) (reorder : csr S -> csr S) (extract : list (parmat S) -> list (parmat S) -> list (option (csr S))).
Hypothesis Hsrt : sorts srt.
Hypothesis Hbs : finds bsearch.
Hypothesis Hre : reorders reorder.
Hypothesis Hex : extracts extract.
Hypothesis R : ring_laws S.

Lemma par_product_ok L M N (As Bs : list (parmat S)) : distributed L M As -> distributed M N Bs -> cols_rows As Bs ->
  exists Cs, (forall n sched, (forall r, 0 < n r) -> par_product n sched srt bsearch reorder extract As Bs = Ok Cs) /\
    zlen Cs = zlen As /\ distributed L N Cs /\
    (forall r A B C, get As r = Ok A -> get Bs r = Ok B -> get Cs r = Ok C -> pm_rs C = pm_rs A /\ pm_cs C = pm_cs B) /\
    forall i j, world_mat Cs i j = mat_mul (world_mat As) (world_mat Bs) M i j.
Proof.
  intros DA DB (LB & HL). destruct (Hex L M N As Bs DA DB LB) as (LX & HX).
  destruct (par_mult_world srt bsearch reorder Hsrt Hbs Hre R As Bs (extract As Bs) M LB LX) as (Cs & Run & LC & HC & Val).
  - intros r A B ext EA EB EX. destruct (ds_valid _ _ _ DA r A EA) as (VA & _ & GA). destruct (ds_valid _ _ _ DB r B EB) as (VB & _).
    refine (conj VA (conj VB (conj (HL r A B EA EB) (conj GA (HX r A B ext EA EB EX))))).
  - intros r q B B' N' EB EB'. exact (ds_rows _ _ _ DB r q B B' N' EB EB').
  - exists Cs. split; [exact Run|]. split; [exact LC|].
    assert (G : forall r C, get Cs r = Ok C -> exists A B, get As r = Ok A /\ get Bs r = Ok B /\ pm_valid C /\ pm_rs C = pm_rs A /\ pm_cs C = pm_cs B).
    { intros r C EC. pose proof EC as EC'. apply (get_Ok_inv pm_none) in EC'. destruct EC' as (Hr & _). rewrite LC in Hr. exists (zn pm_none As r), (zn pm_none Bs r).
      assert (EA : get As r = Ok (zn pm_none As r)) by (apply get_ok; lia). assert (EB : get Bs r = Ok (zn pm_none Bs r)) by (apply get_ok; lia). split; [exact EA|]. split; [exact EB|]. exact (HC r _ _ C EA EB EC). }
    split; [constructor|split; [|exact Val]].
    + intros r C EC. destruct (G r C EC) as (A & B & EA & EB & V & E1 & E2). destruct (ds_valid _ _ _ DA r A EA) as (_ & G1 & _). destruct (ds_valid _ _ _ DB r B EB) as (_ & _ & G2).
      split; [exact V|]. unfold pm_grows, pm_gcols in *. now rewrite E1, E2.
    + intros r q C C' Nq EC EC'. destruct (G r C EC) as (A & B & EA & EB & _ & E1 & E2). destruct (G q C' EC') as (A' & B' & EA' & EB' & _ & E1' & E2'). rewrite E1, E1'. exact (ds_rows _ _ _ DA r q A A' Nq EA EA').
    + intros r q C C' Nq EC EC'. destruct (G r C EC) as (A & B & EA & EB & _ & E1 & E2). destruct (G q C' EC') as (A' & B' & EA' & EB' & _ & E1' & E2'). rewrite E2, E2'. exact (ds_cols _ _ _ DB r q B B' Nq EB EB').
    + intros r A B C EA EB EC. now destruct (HC r A B C EA EB EC) as (_ & E1 & E2).
Qed.

Lemma rap_ok L M N K (Rs As Ps : list (parmat S)) ks : distributed M L Rs -> distributed M N As -> distributed N K Ps ->
  rows_rows Rs As -> cols_rows As Ps -> packages Rs ks ->
  exists Cs, (forall n sched1 sched2, (forall r, 0 < n r) -> rap n sched1 sched2 srt bsearch reorder extract ks Rs As Ps = Ok Cs) /\
    zlen Cs = zlen Rs /\ distributed L K Cs /\
    (forall r Q P C, get Rs r = Ok Q -> get Ps r = Ok P -> get Cs r = Ok C -> pm_rs C = pm_cs Q /\ pm_cs C = pm_cs P) /\
    forall i j, world_mat Cs i j = mat_mul (fun a b => world_mat Rs b a) (mat_mul (world_mat As) (world_mat Ps) N) M i j.
Proof.
  intros DR DA DP (L1 & H1) (L2 & H2) PK. destruct (par_transpose_ok srt bsearch reorder Hsrt Hbs Hre M L Rs ks DR PK) as (Ts & ET & LT & DT & HT & _).
  pose proof (par_transpose_mat srt bsearch reorder Hsrt Hbs Hre M L Rs ks DR PK R Ts ET) as VT.
  destruct (par_product_ok M N K As Ps DA DP (conj L2 H2)) as (AP & RunAP & LAP & DAP & HAP & VAP).
  destruct (par_product_ok L M K Ts AP DT DAP) as (Cs & RunC & LC & DC & HC & VC).
  { split; [lia|]. intros r X Y EX EY. pose proof EX as EX'. apply (get_Ok_inv pm_none) in EX'. destruct EX' as (Hr & _). rewrite LT in Hr.
    assert (ER : get Rs r = Ok (zn pm_none Rs r)) by (apply get_ok; lia). assert (EA : get As r = Ok (zn pm_none As r)) by (apply get_ok; lia). assert (EP : get Ps r = Ok (zn pm_none Ps r)) by (apply get_ok; lia).
    destruct (HT r _ X ER EX) as (_ & ->). destruct (HAP r _ _ Y EA EP EY) as (-> & _). exact (H1 r _ _ ER EA). }
  exists Cs. split; [|split; [lia|split; [exact DC|split]]].
  - intros n s1 s2 Hn. unfold rap. rewrite ET. cbn [bind]. rewrite RunAP by exact Hn. cbn [bind]. now apply RunC.
  - intros r Q P C EQ EP EC. pose proof EC as EC'. apply (get_Ok_inv pm_none) in EC'. destruct EC' as (Hr & _).
    assert (EX : get Ts r = Ok (zn pm_none Ts r)) by (apply get_ok; lia). assert (EY : get AP r = Ok (zn pm_none AP r)) by (apply get_ok; lia). assert (EA : get As r = Ok (zn pm_none As r)) by (apply get_ok; lia).
    destruct (HC r _ _ C EX EY EC) as (-> & ->). destruct (HT r Q _ EQ EX) as (-> & _). destruct (HAP r _ P _ EA EP EY) as (_ & ->). auto.
  - intros i j. rewrite VC. unfold mat_mul at 1 2. apply sum_range_ext. intros k _. rewrite VT, VAP. reflexivity.
Qed.

Lemma rap2_ok N K (As Ps : list (parmat S)) ks : distributed N N As -> distributed N K Ps ->
  rows_rows Ps As -> cols_rows As Ps -> packages Ps ks ->
  exists Cs, (forall n sched1 sched2, (forall r, 0 < n r) -> rap2 n sched1 sched2 srt bsearch reorder extract ks As Ps = Ok Cs) /\
    zlen Cs = zlen Ps /\ distributed K K Cs /\
    (forall r P C, get Ps r = Ok P -> get Cs r = Ok C -> pm_rs C = pm_cs P /\ pm_cs C = pm_cs P) /\
    forall i j, world_mat Cs i j = mat_mul (fun a b => world_mat Ps b a) (mat_mul (world_mat As) (world_mat Ps) N) N i j.
Proof.
  intros DA DP H1 H2 PK. destruct (rap_ok K N N K Ps As Ps ks DP DA DP H1 H2 PK) as (Cs & Run & LC & DC & HC & Val). exists Cs. split; [exact Run|]. split; [exact LC|]. split; [exact DC|]. split; [|exact Val].
  intros r P C EP EC. exact (HC r P P C EP EP EC).
Qed.

End Rap.

(* ---------------------------------------------------------------- a function that extracts *)

Section Fetch.
Context {S : scalar}.
Notation T := (car S).
Hypothesis R : ring_laws S.

Definition fetch_row (l : list (entry S)) (g : Z) : list (Z * T) := map (fun e => (ecol e, evalue e)) (filter (fun e => erow e =? g) l).
Definition fetch (As Bs : list (parmat S)) : list (option (csr S)) :=
  map (fun r => Some (csr_of_rows (zlen (pm_map (zn pm_none As r))) (pm_gcols (zn pm_none Bs r)) (fun k => fetch_row (flat_map pm_entries Bs) (zn 0 (pm_map (zn pm_none As r)) k)))) (zrange 0 (zlen As)).

Lemma pm_entries_cols (A : parmat S) e : pm_valid A -> In e (pm_entries A) -> 0 <= ecol e < pm_gcols A.
Proof.
  intros V H. unfold pm_entries in H. apply in_app_iff in H. pose proof (entries_in_shape _ (pv_diag A V)) as S1. pose proof (entries_in_shape _ (pv_offd A V)) as S2. unfold in_shape in S1, S2. rewrite Forall_forall in S1, S2.
  pose proof (pv_dcols A V). pose proof (pv_ocols A V). pose proof (pv_crange A V). unfold pm_gcols. destruct H as [H|H]; apply in_map_iff in H; destruct H as (x & <- & I); cbn [ecol erow fst snd]; [specialize (S1 x I); lia|].
  specialize (S2 x I). apply (pv_map A V). lia.
Qed.

Lemma fetch_extracts : extracts fetch.
Proof.
  intros L M N As Bs DA DB LB. unfold fetch. pose proof (zlen_nonneg As). rewrite zlen_map_zrange by lia. split; [reflexivity|]. intros r A B ext EA EB EX.
  pose proof EA as EA'. apply (get_Ok_inv pm_none) in EA'. destruct EA' as (Hr & EA'). pose proof EB as EB'. apply (get_Ok_inv pm_none) in EB'. destruct EB' as (_ & EB').
  rewrite (get_ok None) in EX by (rewrite zlen_map_zrange; lia). rewrite zn_map_zrange in EX by exact Hr. rewrite <- EA', <- EB' in EX. injection EX as <-. cbn [extracted].
  destruct (ds_valid _ _ _ DB r B EB) as (_ & _ & GB). rewrite GB. pose proof (zlen_nonneg (pm_map A)) as Hm.
  assert (HN : 0 <= N) by (destruct (ds_valid _ _ _ DB r B EB) as (V & _); pose proof (pv_crange B V); unfold pm_gcols in GB; lia).
  assert (Hc : forall k x, 0 <= k < zlen (pm_map A) -> In x (fetch_row (flat_map pm_entries Bs) (zn 0 (pm_map A) k)) -> 0 <= fst x < N).
  { intros k x _ I. unfold fetch_row in I. apply in_map_iff in I. destruct I as (e & <- & I). apply filter_In in I. destruct I as (I & _). apply in_flat_map in I. destruct I as (C & IC & Ie). cbn [fst].
    destruct (In_zn pm_none _ _ IC) as (q & Hq & Eq). destruct (ds_valid _ _ _ DB q C) as (VC & _ & <-); [rewrite <- Eq; apply get_ok; exact Hq|]. now apply pm_entries_cols. }
  split; [now apply csr_of_rows_valid|]. split; [reflexivity|]. split; [reflexivity|]. intros k j Hk. rewrite (csr_of_rows_mat R) by exact Hk. unfold world_mat. rewrite (mat_of_if R). unfold key_sum, fetch_row. rewrite map_map. cbn [fst snd].
  rewrite (sum_filter R). apply sum_map_ext. intros e _. unfold at_pos. destruct (erow e =? zn 0 (pm_map A) k); reflexivity.
Qed.

End Fetch.
