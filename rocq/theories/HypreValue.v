(** The product of two distributed matrices is the product of the global matrices. *)

From Coq Require Import ZArith List Bool Lia.
From Verif Require Import Base Scalar Spec Dense Sparse SumFacts LoopFacts CsrFacts Rows SortProofs Accum ProductProofs Par ParSpec ParProofs ParAddProofs ParSplitProofs
  Threads ThreadProofs HypreOps HypreSpec HypreThreads HypreExt HypreSplit HypreRows HypreProofs.
Import ListNotations.
Open Scope Z_scope.

Section Mult.
Context {S : scalar}.
Notation T := (car S).
Variables (srt : sorter) (bsearch : list Z -> Z -> Z -> Z) (reorder : csr S -> csr S).
Hypothesis Hsrt : sorts srt.
Hypothesis Hbs : finds bsearch.
Hypothesis Hre : reorders reorder.

Section Value.
Hypothesis R : ring_laws S.

Definition renamed (f : Z -> Z) (l : list (Z * T)) : list (Z * T) := map (fun p => (f (fst p), snd p)) l.

Lemma key_sum_app (l1 l2 : list (Z * T)) j : key_sum (l1 ++ l2) j = sadd (key_sum l1 j) (key_sum l2 j).
Proof. unfold key_sum. rewrite map_app. now apply sum_list_app. Qed.

Lemma key_sum_ext f g (l : list (Z * T)) j : (forall p, In p l -> f (fst p) = g (fst p)) -> key_sum (renamed f l) j = key_sum (renamed g l) j.
Proof. intros H. unfold renamed. f_equal. apply map_ext_in. intros p Hp. now rewrite H. Qed.

Lemma renamed_id (l : list (Z * T)) : renamed (fun c => c) l = l.
Proof. unfold renamed. rewrite <- (map_id l) at 2. apply map_ext. now intros []. Qed.

Lemma key_sum_shift c (l : list (Z * T)) j : key_sum l (j - c) = key_sum (renamed (fun k => c + k) l) j.
Proof.
  unfold key_sum, renamed. rewrite map_map. apply sum_map_ext. intros p _. cbn [fst snd]. destruct (Z.eqb_spec (fst p) (j - c)), (Z.eqb_spec (c + fst p) j); reflexivity || lia.
Qed.

(** Accumulation keeps the sums also when the columns are renamed. *)
Lemma acc_renamed f (l : list (Z * T)) j : forall a, key_sum (renamed f (acc_from sadd keep a l)) j = sadd (key_sum (renamed f a) j) (key_sum (renamed f l) j).
Proof.
  assert (Hadd : forall c v a, key_sum (renamed f (acc_add sadd keep a c v)) j = sadd (key_sum (renamed f a) j) (if f c =? j then v else s0)).
  { intros c v. induction a as [|[c' v'] a IH]; cbn [acc_add].
    - unfold key_sum, renamed, keep. cbn. now apply sadd_comm.
    - unfold key_sum, renamed in *. destruct (Z.eqb_spec c' c) as [->|Hne]; cbn [map fst snd]; rewrite !sum_cons.
      + destruct (f c =? j); [|now rewrite !sadd_0_l, sadd_0_r by exact R]. rewrite <- !sadd_assoc by exact R. f_equal. now apply sadd_comm.
      + rewrite IH. now rewrite sadd_assoc by exact R. }
  induction l as [|[c v] l IH]; intros a.
  - change (key_sum (renamed f []) j) with (@s0 S). now rewrite sadd_0_r by exact R.
  - change (acc_from sadd keep a ((c, v) :: l)) with (acc_from sadd keep (acc_add sadd keep a c v) l). rewrite IH, Hadd.
    change (key_sum (renamed f ((c, v) :: l)) j) with (sadd (if f c =? j then v else s0) (key_sum (renamed f l) j)). now rewrite sadd_assoc by exact R.
Qed.

Lemma entries_renamed f rows cols (g : Z -> list (Z * T)) :
  map (fun e => (erow e, f (ecol e), evalue e)) (entries (csr_of_rows rows cols g)) = entries (csr_of_rows rows cols (fun i => renamed f (g i))).
Proof.
  rewrite !csr_of_rows_entries, map_flat_map. apply flat_map_ext_in. intros i _. unfold row_to_entries, renamed. rewrite !map_map. reflexivity.
Qed.

(** The row of a rank, with global columns. *)
Definition global_row (X : parmat S) (i : Z) : list (Z * T) :=
  renamed (fun c => zn 0 (pm_cs X) 0 + c) (row_of (pm_diag X) i) ++ renamed (zn 0 (pm_map X)) (row_of (pm_offd X) i).

Lemma pm_mat_row (X : parmat S) i j : pm_valid X -> 0 <= i < c_rows (pm_diag X) -> pm_mat X (zn 0 (pm_rs X) 0 + i) j = key_sum (global_row X i) j.
Proof.
  intros V Hi. rewrite (pm_mat_split R). replace (zn 0 (pm_rs X) 0 + i - zn 0 (pm_rs X) 0) with i by lia. unfold global_row. rewrite key_sum_app, <- key_sum_shift. f_equal.
  - symmetry. apply (key_sum_row_of R); [exact (pv_diag X V)|exact Hi].
  - unfold offd_entries. rewrite (csr_eta (pm_offd X) (pv_offd X V)). rewrite entries_renamed. fold (csr_mat (csr_of_rows (c_rows (pm_offd X)) (c_cols (pm_offd X)) (fun i0 => renamed (zn 0 (pm_map X)) (row_of (pm_offd X) i0)))).
    rewrite (csr_of_rows_mat R) by (rewrite (pv_orows X V), <- (pv_drows X V); exact Hi). now rewrite <- (csr_eta (pm_offd X) (pv_offd X V)).
Qed.

Lemma pm_mat_out (X : parmat S) i j : pm_valid X -> ~ (zn 0 (pm_rs X) 0 <= i < zn 0 (pm_rs X) 1) -> pm_mat X i j = s0.
Proof.
  intros V Hi. unfold pm_mat, mat_of. rewrite filter_none; [reflexivity|]. intros x Hx. unfold pm_entries in Hx. apply in_app_iff in Hx.
  pose proof (entries_in_shape _ (pv_diag X V)) as S1. pose proof (entries_in_shape _ (pv_offd X V)) as S2. unfold in_shape in S1, S2. rewrite Forall_forall in S1, S2.
  pose proof (pv_drows X V). pose proof (pv_orows X V).
  destruct Hx as [Hx|Hx]; apply in_map_iff in Hx; destruct Hx as (y & <- & Hy); unfold at_pos; cbn [erow ecol fst snd]; [specialize (S1 y Hy)|specialize (S2 y Hy)]; lia.
Qed.

(** A sum over the entries of a row is a sum over its columns. *)
Lemma row_sum (l : list (Z * T)) n (x : Z -> T) : (forall p, In p l -> 0 <= fst p < n) ->
  sum_list (map (fun p => smul (snd p) (x (fst p))) l) = sum_range 0 n (fun k => smul (key_sum l k) (x k)).
Proof.
  intros H. pose proof (sum_entries_row_filter R n (row_to_entries 0 l) 0 x) as G. rewrite filter_all in G.
  - unfold row_to_entries in G at 2. rewrite map_map in G. cbn [evalue ecol fst snd] in G. rewrite G.
    + apply sum_range_ext. intros k _. rewrite (mat_of_row_to_entries R). reflexivity.
    + intros x' Hx _. unfold row_to_entries in Hx. apply in_map_iff in Hx. destruct Hx as (p & <- & Hp). cbn. now apply H.
  - intros x' Hx. unfold row_to_entries in Hx. apply in_map_iff in Hx. destruct Hx as (p & <- & Hp). reflexivity.
Qed.

Lemma key_sum_part (b : bool) (f h : Z -> Z) (a : T) (row : list (Z * T)) j : key_sum (renamed h (pick b (part b f a row))) j = smul a (key_sum (renamed (fun c => h (f c)) row) j).
Proof.
  unfold pick, part. rewrite filter_all by (intros o Ho; apply in_map_iff in Ho; destruct Ho as (q & <- & _); cbn; apply eqb_reflx).
  unfold key_sum, renamed. rewrite !map_map. rewrite <- (sum_map_scale R). apply sum_map_ext. intros p _. cbn [fst snd]. destruct (h (f (fst p)) =? j); [reflexivity|]. now rewrite smul_0_r by exact R.
Qed.

Lemma pick_part_other (b b' : bool) (f : Z -> Z) (a : T) (row : list (Z * T)) : b <> b' -> pick b' (part b f a row) = [].
Proof.
  intros N. unfold pick, part. rewrite filter_none; [reflexivity|]. intros o Ho. apply in_map_iff in Ho. destruct Ho as (q & <- & _). cbn. now apply eqb_false_iff.
Qed.

Lemma pick_app b l1 l2 : pick (S := S) b (l1 ++ l2) = pick b l1 ++ pick b l2.
Proof. unfold pick. now rewrite filter_app, map_app. Qed.

(** The sum of the products of a row that belong to global column j. *)
Definition total (fc : Z) (cm : list Z) (l : list (bool * (Z * T))) (j : Z) : T :=
  sadd (key_sum (renamed (fun c => fc + c) (pick false l)) j) (key_sum (renamed (zn 0 cm) (pick true l)) j).

Lemma total_app fc cm l1 l2 j : total fc cm (l1 ++ l2) j = sadd (total fc cm l1 j) (total fc cm l2 j).
Proof.
  unfold total. rewrite !pick_app. unfold renamed. rewrite !map_app, !key_sum_app.
  set (a := key_sum _ j). set (b := key_sum _ j). set (c := key_sum _ j). set (d := key_sum _ j).
  rewrite !(sadd_assoc R). f_equal. rewrite <- !(sadd_assoc R). f_equal. apply (sadd_comm R).
Qed.

Lemma total_flat_map fc cm (h : Z * T -> list (bool * (Z * T))) l j : total fc cm (flat_map h l) j = sum_list (map (fun p => total fc cm (h p) j) l).
Proof.
  induction l as [|p l IH]; cbn [flat_map map].
  - unfold total. cbn. apply (sadd_0_l R).
  - rewrite total_app, IH, sum_cons. reflexivity.
Qed.

Lemma key_sum_split (P : Z * T -> bool) (l : list (Z * T)) j : sadd (key_sum (filter P l) j) (key_sum (filter (fun p => negb (P p)) l) j) = key_sum l j.
Proof.
  unfold key_sum. rewrite !(sum_filter R), <- (sum_map_add R). apply sum_map_ext. intros p _. destruct (P p); cbn [negb]; [apply (sadd_0_r R)|apply (sadd_0_l R)].
Qed.

Lemma par_mult_value (G : mat S) (A B : parmat S) ext : pm_valid A -> pm_valid B -> pm_cs A = pm_rs B -> extracted G A B ext ->
  (forall k j, zn 0 (pm_rs B) 0 <= k < zn 0 (pm_rs B) 1 -> G k j = pm_mat B k j) ->
  exists C, (forall n sched, 0 < n -> par_mult n sched srt bsearch reorder ext A B = Ok C) /\
    pm_valid C /\ pm_rs C = pm_rs A /\ pm_cs C = pm_cs B /\
    forall i j, pm_mat C i j = mat_mul (pm_mat A) G (pm_gcols A) i j.
Proof.
  intros PA PB HAB HX HG. destruct (par_mult_exact srt bsearch reorder Hsrt Hbs Hre G A B ext PA PB HAB HX) as (cmC & mBC & C & (Inc & Hin) & (Lm & Hm) & Hrun & VC & E1 & E2 & E3 & E4 & E5 & VDC & _).
  exists C. split; [exact Hrun|]. split; [exact VC|]. split; [exact E1|]. split; [exact E2|]. intros i j.
  destruct (Z_le_gt_dec (zn 0 (pm_rs A) 0) i) as [I1|I1]; [destruct (Z_lt_ge_dec i (zn 0 (pm_rs A) 1)) as [I2|I2]|].
  2, 3: unfold mat_mul; rewrite pm_mat_out by (auto; rewrite E1; lia); symmetry; apply (sum_range_0 R); intros k _; rewrite pm_mat_out by (auto; lia); apply (smul_0_l R).
  set (r := i - zn 0 (pm_rs A) 0). assert (Hr : 0 <= r < c_rows (pm_diag A)) by (rewrite (pv_drows A PA); lia). assert (Ei : i = zn 0 (pm_rs A) 0 + r) by lia.
  set (e := ext_of ext) in *. set (fc := zn 0 (pm_cs B) 0) in *. set (lc := fc + c_cols (pm_diag B) - 1) in *. set (asq := c_rows (pm_diag A) =? c_cols (pm_diag B)) in *. set (ncoA := c_cols (pm_offd A)) in *.
  set (dx := Dx A B ext) in *. set (ox := Ox bsearch A B ext cmC) in *. set (nco := zlen cmC) in *.
  set (D := drow A B dx ox mBC asq) in *. set (O := orow A B dx ox mBC) in *.
  (* the entries of C are the products *)
  assert (L1 : pm_mat C i j = total fc cmC (ops A B dx ox mBC r) j).
  { rewrite (pm_mat_split R), E1, E2, E4. fold r fc.
    destruct (Hre _ VDC) as (_ & SE). rewrite (same_entries_mat R _ _ _ _ SE), (csr_of_rows_mat R) by exact Hr.
    rewrite key_sum_shift. unfold D, drow. rewrite acc_renamed. unfold total. f_equal.
    - unfold dinit. destruct asq; [|unfold renamed; cbn; now rewrite (sadd_0_l R)]. unfold renamed at 1, key_sum at 1. cbn [map sum_list fold_right fst snd]. destruct (fc + r =? j); rewrite !(sadd_0_l R); reflexivity.
    - unfold offd_entries. rewrite E3, E5, entries_renamed. fold (csr_mat (csr_of_rows (c_rows (pm_diag A)) nco (fun i0 => renamed (zn 0 cmC) (O i0)))).
      rewrite (csr_of_rows_mat R) by exact Hr. unfold O, orow. rewrite acc_renamed. change (key_sum (renamed (zn 0 cmC) []) j) with (@s0 S). apply (sadd_0_l R). }
  rewrite L1. unfold ops. rewrite total_app, !total_flat_map.
  (* the rows received from other ranks *)
  assert (L2 : sum_list (map (fun p => total fc cmC (outer dx ox p) j) (row_of (pm_offd A) r)) = sum_list (map (fun p => smul (snd p) (G (zn 0 (pm_map A) (fst p)) j)) (row_of (pm_offd A) r))).
  { apply sum_map_ext. intros [k a] Hp. apply row_of_cols in Hp; [|exact (pv_offd A PA)|rewrite (pv_orows A PA), <- (pv_drows A PA); exact Hr]. cbn [fst snd] in *. fold ncoA in Hp.
    destruct (ext_rows G A B ext PA HX k Hp) as (Ve & Hk). fold e in Ve, Hk.
    unfold outer. cbn [fst snd]. unfold total. rewrite !pick_app, !(pick_part_other true false), !(pick_part_other false true) by discriminate. cbn [app]. rewrite app_nil_r.
    rewrite !key_sum_part, <- (smul_add_r R). f_equal.
    unfold dx, Dx, ox, Ox. fold e fc lc ncoA nco. rewrite !row_of_rows by exact Hp.
    assert (K1 : key_sum (renamed (fun c => fc + c) (edrow e fc lc k)) j = key_sum (filter (fun p => negb (outside fc lc (fst p))) (row_of e k)) j).
    { unfold edrow, renamed. rewrite map_map. cbn [fst snd]. rewrite <- (map_id (filter _ _)) at 2. f_equal. apply map_ext. intros []. cbn. f_equal. lia. }
    assert (K2 : key_sum (renamed (fun c => zn 0 cmC c) (map (fun p => (bsearch cmC (fst p) nco, snd p)) (eorow e fc lc k))) j = key_sum (filter (fun p => outside fc lc (fst p)) (row_of e k)) j).
    { unfold renamed. rewrite map_map. cbn [fst snd]. fold (eorow e fc lc k). rewrite <- (map_id (eorow e fc lc k)) at 2. f_equal. apply map_ext_in. intros [c v] Hq. cbn [fst snd]. f_equal.
      apply (bsearch_ok bsearch Hbs cmC c Inc). apply Hin. left. apply (in_map fst) in Hq. cbn [fst] in Hq. fold e fc lc ncoA. apply in_map_iff in Hq. destruct Hq as (q & Eq & Hq). apply in_map_iff. exists q. split; [exact Eq|].
      unfold cat. apply in_flat_map. exists k. split; [now apply In_zrange|exact Hq]. }
    rewrite K1, K2, (sadd_comm R), (key_sum_split (fun p => outside fc lc (fst p))), (key_sum_row_of R) by (auto; lia).
    revert Hp. unfold ncoA, e, ext_of. rewrite (pv_ocols A PA). unfold extracted in HX. destruct ext as [x|]; [destruct HX as (_ & _ & _ & HX'); apply HX'|].
    rewrite HX. change (zlen (@nil Z)) with 0. lia. }
  (* the rows of this rank *)
  assert (L3 : sum_list (map (fun p => total fc cmC (inner B mBC p) j) (row_of (pm_diag A) r)) = sum_list (map (fun p => smul (snd p) (G (zn 0 (pm_cs A) 0 + fst p) j)) (row_of (pm_diag A) r))).
  { apply sum_map_ext. intros [k a] Hp. apply row_of_cols in Hp; [|exact (pv_diag A PA)|exact Hr]. cbn [fst snd] in *.
    assert (Hk : 0 <= k < c_rows (pm_diag B)) by (rewrite (pv_drows B PB), <- HAB, <- (pv_dcols A PA); exact Hp).
    unfold inner. cbn [fst snd]. unfold total. rewrite !pick_app, !(pick_part_other true false), !(pick_part_other false true) by discriminate. cbn [app]. rewrite app_nil_r.
    rewrite !key_sum_part, <- (smul_add_r R). f_equal. rewrite HAB, HG by (pose proof (pv_drows B PB); lia). rewrite pm_mat_row by auto. unfold global_row. rewrite key_sum_app. f_equal.
    apply key_sum_ext. intros q Hq. apply row_of_cols in Hq; [|exact (pv_offd B PB)|rewrite (pv_orows B PB), <- (pv_drows B PB); exact Hk]. rewrite (pv_ocols B PB) in Hq. now apply Hm. }
  rewrite L2, L3, (sadd_comm R). unfold mat_mul.
  rewrite (sum_range_ext 0 (pm_gcols A) _ (fun k => smul (key_sum (global_row A r) k) (G k j))) by (intros k _; rewrite Ei, pm_mat_row by auto; reflexivity).
  rewrite <- (row_sum (global_row A r) (pm_gcols A) (fun k => G k j)).
  - unfold global_row. rewrite map_app, (sum_list_app R). unfold renamed. rewrite !map_map. reflexivity.
  - intros p Hp. unfold global_row in Hp. apply in_app_iff in Hp. pose proof (pv_crange A PA) as Hc. unfold pm_gcols. destruct Hp as [Hp|Hp]; unfold renamed in Hp; apply in_map_iff in Hp; destruct Hp as (q & <- & Hq); cbn [fst].
    + apply row_of_cols in Hq; [|exact (pv_diag A PA)|exact Hr]. rewrite (pv_dcols A PA) in Hq. lia.
    + apply row_of_cols in Hq; [|exact (pv_offd A PA)|rewrite (pv_orows A PA), <- (pv_drows A PA); exact Hr]. rewrite (pv_ocols A PA) in Hq. now apply (pv_map A PA).
Qed.

End Value.
End Mult.
