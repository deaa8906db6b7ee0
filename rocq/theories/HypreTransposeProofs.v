(** ParMatrix::Transpose moves every entry to its mirrored position. *)

From Coq Require Import ZArith List Bool Lia Permutation.
From Verif Require Import Base Scalar Spec Dense Sparse SumFacts LoopFacts CsrFacts Rows SortProofs CooMore Accum ProductProofs TransposeProofs LilProofs Par ParSpec ParProofs ParAddProofs ParSplitProofs
  HypreOps HypreSpec HypreExt HypreProofs HypreValue HypreLinks HypreTranspose HypreTransposeSpec HypreSort HypreComm.
Import ListNotations.
Open Scope Z_scope.

(* ---------------------------------------------------------------- permutations of concatenations *)

Section Perm.
Context {Y : Type}.

Lemma flat_map_add {X} (f g : X -> list Y) l : Permutation (flat_map (fun x => f x ++ g x) l) (flat_map f l ++ flat_map g l).
Proof.
  induction l as [|x l IH]; [constructor|]. cbn [flat_map]. rewrite IH, <- !app_assoc. apply Permutation_app_head. rewrite !app_assoc. apply Permutation_app_tail. apply Permutation_app_comm.
Qed.

Lemma flat_map_nils {X} (l : list X) : flat_map (fun _ => @nil Y) l = [].
Proof. induction l; [reflexivity|exact IHl]. Qed.

Lemma flat_map_exchange {X W} (f : X -> W -> list Y) l1 l2 : Permutation (flat_map (fun x => flat_map (f x) l2) l1) (flat_map (fun y => flat_map (fun x => f x y) l1) l2).
Proof.
  induction l1 as [|x l1 IH]; cbn [flat_map]; [now rewrite flat_map_nils|]. rewrite IH. symmetry. apply flat_map_add.
Qed.

Lemma flat_map_one (x : Z) (g : Z -> list Y) l : NoDup l -> In x l -> flat_map (fun e => if x =? e then g e else []) l = g x.
Proof.
  assert (N : forall l, ~ In x l -> flat_map (fun e => if x =? e then g e else []) l = []).
  { induction l0 as [|y l0 IH]; intros Hx; [reflexivity|]. cbn [flat_map]. destruct (Z.eqb_spec x y) as [->|_]; [exfalso; apply Hx; now left|]. apply IH. intros H. apply Hx. now right. }
  induction 1 as [|y l0 Hy Nd IH]; intros Hx; [destruct Hx|]. cbn [flat_map]. destruct (Z.eqb_spec x y) as [->|Hne]; [rewrite N by exact Hy; apply app_nil_r|]. apply IH. destruct Hx; [congruence|assumption].
Qed.

Lemma flat_map_filter {X} (P : X -> bool) (f : X -> list Y) l : flat_map (fun x => if P x then f x else []) l = flat_map f (filter P l).
Proof. induction l as [|x l IH]; [reflexivity|]. cbn [flat_map filter]. rewrite IH. destruct (P x); reflexivity. Qed.

Definition mem (l : list Z) (x : Z) : bool := existsb (Z.eqb x) l.

Lemma mem_In l x : mem l x = true <-> In x l.
Proof.
  unfold mem. rewrite existsb_exists. split; [intros (y & H & E); apply Z.eqb_eq in E; now subst|]. intros H. exists x. split; [exact H|apply Z.eqb_refl].
Qed.

Lemma flat_map_members p (f : Z -> list Y) l : NoDup l -> (forall x, In x l -> 0 <= x < p) ->
  Permutation (flat_map f l) (flat_map (fun x => if mem l x then f x else []) (zrange 0 p)).
Proof.
  intros N H. rewrite flat_map_filter. apply Permutation_flat_map. apply NoDup_Permutation; [exact N|apply NoDup_filter, NoDup_zrange|].
  intros x. rewrite filter_In, In_zrange, mem_In. split; [intros Hx; split; [now apply H|exact Hx]|tauto].
Qed.

Lemma flat_map_perm_in {X} (f g : X -> list Y) l : (forall x, In x l -> Permutation (f x) (g x)) -> Permutation (flat_map f l) (flat_map g l).
Proof.
  induction l as [|x l IH]; intros H; [constructor|]. cbn [flat_map]. apply Permutation_app; [apply H; now left|]. apply IH. intros y Hy. apply H. now right.
Qed.

Lemma cat_concat {X} (g : Z -> list (list X)) n m : 0 <= m <= n -> cat (zn [] (cat g n)) (off g m) = concat (cat g m).
Proof.
  intros H. unfold cat at 1. rewrite flat_map_concat_map. pose proof (cat_slice [] g n 0 m ltac:(lia) ltac:(lia)) as E. change (off g 0) with 0 in E. rewrite E. reflexivity.
Qed.

Lemma concat_cat {X} (g : Z -> list (list X)) n : concat (cat g n) = cat (fun i => concat (g i)) n.
Proof. unfold cat. induction (zrange 0 n) as [|i l IH]; [reflexivity|]. cbn [flat_map]. now rewrite concat_app, IH. Qed.

End Perm.

Lemma position_ok l x : In x l -> forall j, j <= position l x j < j + zlen l /\ zn 0 l (position l x j - j) = x.
Proof.
  induction l as [|y l IH]; intros Hx j; [destruct Hx|]. rewrite zlen_cons. pose proof (zlen_nonneg l). cbn [position]. destruct (Z.eqb_spec y x) as [->|N].
  - split; [lia|]. now rewrite Z.sub_diag.
  - destruct Hx as [Hx|Hx]; [congruence|]. destruct (IH Hx (j + 1)) as (B & E). split; [lia|]. rewrite zn_cons_pos by lia. rewrite <- E at 2. f_equal. lia.
Qed.

Lemma position_zn l i : NoDup l -> 0 <= i < zlen l -> position l (zn 0 l i) 0 = i.
Proof.
  intros N Hi. destruct (position_ok l (zn 0 l i) (zn_In 0 l i Hi) 0) as (B & E). rewrite Z.sub_0_r in E. apply (NoDup_zn 0 l); auto.
Qed.

(* ---------------------------------------------------------------- the ranks *)

Section Ranks.
Context {S : scalar}.
Notation T := (car S).
Variables (srt : sorter) (bsearch : list Z -> Z -> Z -> Z) (reorder : csr S -> csr S).
Hypothesis Hsrt : sorts srt.
Hypothesis Hbs : finds bsearch.
Hypothesis Hre : reorders reorder.
Variables (M N : Z) (As : list (parmat S)) (ks : list commpkg).
Hypothesis HD : distributed M N As.
Hypothesis HP : packages As ks.
Let p := zlen As.
Let mat r := zn pm_none As r.
Let pkg r := zn no_pkg ks r.

Lemma tr_p : 0 <= p. Proof. apply zlen_nonneg. Qed.
Lemma tr_ks : zlen ks = p. Proof. exact (pk_len _ _ HP). Qed.

Lemma get_mat r : 0 <= r < p -> get As r = Ok (mat r).
Proof. intros Hr. apply get_ok. exact Hr. Qed.
Lemma get_pkg r : 0 <= r < p -> get ks r = Ok (pkg r).
Proof. intros Hr. apply get_ok. rewrite tr_ks. exact Hr. Qed.

Lemma tr_valid r : 0 <= r < p -> pm_valid (mat r) /\ zn 0 (pm_rs (mat r)) 2 = M /\ zn 0 (pm_cs (mat r)) 2 = N.
Proof. intros Hr. exact (ds_valid _ _ _ HD r _ (get_mat r Hr)). Qed.

Lemma tr_from r i : 0 <= r < p -> 0 <= i < zlen (k_rp (pkg r)) -> let q := zn 0 (k_rp (pkg r)) i in 0 <= q < p /\ In r (k_sp (pkg q)).
Proof.
  intros Hr Hi q. destruct (pk_from _ _ HP r _ i (get_pkg r Hr) Hi) as (kq & E & I). apply (get_Ok_inv no_pkg) in E. destruct E as (B & E). rewrite tr_ks in B. split; [exact B|]. rewrite E in I. exact I.
Qed.

Lemma tr_to q i : 0 <= q < p -> 0 <= i < zlen (k_sp (pkg q)) -> let r := zn 0 (k_sp (pkg q)) i in 0 <= r < p /\ In q (k_rp (pkg r)).
Proof.
  intros Hq Hi r. destruct (pk_to _ _ HP q _ i (get_pkg q Hq) Hi) as (kr & E & I). apply (get_Ok_inv no_pkg) in E. destruct E as (B & E). rewrite tr_ks in B. split; [exact B|]. rewrite E in I. exact I.
Qed.

(** Rank q receives its i-th message from rank [src q i], where it is the message number
    [slot q i]. *)
Let src q i := zn 0 (k_sp (pkg q)) i.
Let slot q i := position (k_rp (pkg (src q i))) q 0.
Let from q i := zn 0 (k_rs (pkg (src q i))) (slot q i).
Let upto q i := zn 0 (k_rs (pkg (src q i))) (slot q i + 1).
Let ns q := zlen (k_sp (pkg q)).
Let n q := zlen (k_se (pkg q)).

Lemma slot_ok q i : 0 <= q < p -> 0 <= i < ns q -> 0 <= slot q i < zlen (k_rp (pkg (src q i))) /\ zn 0 (k_rp (pkg (src q i))) (slot q i) = q.
Proof.
  intros Hq Hi. destruct (tr_to q i Hq Hi) as (_ & I). destruct (position_ok _ _ I 0) as (B & E). rewrite Z.sub_0_r in E. unfold slot, src. split; [lia|exact E].
Qed.

Lemma match_ok q i : 0 <= q < p -> 0 <= i < ns q -> 0 <= src q i < p /\ 0 <= from q i <= upto q i /\ upto q i <= zlen (pm_map (mat (src q i))) /\
  upto q i - from q i = zn 0 (k_ss (pkg q)) (i + 1) - zn 0 (k_ss (pkg q)) i /\
  forall t, 0 <= t < upto q i - from q i -> zn 0 (pm_map (mat (src q i))) (from q i + t) = zn 0 (pm_cs (mat q)) 0 + zn 0 (k_se (pkg q)) (zn 0 (k_ss (pkg q)) i + t).
Proof.
  intros Hq Hi. destruct (tr_to q i Hq Hi) as (Hr & _). fold (src q i) in Hr. destruct (slot_ok q i Hq Hi) as (Bs & Es).
  destruct (pk_recv _ _ HP _ _ _ (get_mat _ Hr) (get_pkg _ Hr)) as (_ & Sg).
  split; [exact Hr|]. pose proof (segments_bounds _ _ _ (slot q i) Sg ltac:(lia)) as B1. pose proof (segments_bounds _ _ _ (slot q i + 1) Sg ltac:(lia)) as B2. pose proof (segments_mono _ _ _ (slot q i) (slot q i + 1) Sg ltac:(lia) ltac:(lia)) as B3.
  fold (from q i) in B1, B3. fold (upto q i) in B2, B3. split; [lia|]. split; [lia|].
  exact (pk_match _ _ HP _ q _ _ _ _ _ i (get_mat _ Hr) (get_mat _ Hq) (get_pkg _ Hr) (get_pkg _ Hq) Bs Es Hi eq_refl).
Qed.

Lemma send_ok q : 0 <= q < p -> NoDup (k_sp (pkg q)) /\ segments (k_ss (pkg q)) (ns q) (n q) /\ forall j, 0 <= j < n q -> 0 <= zn 0 (k_se (pkg q)) j < c_cols (pm_diag (mat q)).
Proof. intros Hq. exact (pk_send _ _ HP _ _ _ (get_mat _ Hq) (get_pkg _ Hq)). Qed.

(** The columns that the ranks send to rank q *)
Let group q i := map (column (mat (src q i))) (zrange (from q i) (upto q i)).
Let pays q := cat (group q) (ns q).
Let pay q j := zn [] (pays q) j.

Lemma group_len q i : 0 <= q < p -> 0 <= i < ns q -> zlen (group q i) = zn 0 (k_ss (pkg q)) (i + 1) - zn 0 (k_ss (pkg q)) i.
Proof. intros Hq Hi. destruct (match_ok q i Hq Hi) as (_ & B & _ & E & _). unfold group. rewrite zlen_map, zlen_zrange by lia. exact E. Qed.

Lemma group_off q m : 0 <= q < p -> 0 <= m <= ns q -> off (group q) m = zn 0 (k_ss (pkg q)) m.
Proof.
  intros Hq (Hm & Hmn). destruct (send_ok q Hq) as (_ & Sg & _). revert Hmn. pattern m. revert m Hm. apply natlike_ind.
  - intros _. destruct Sg as (_ & -> & _). reflexivity.
  - intros m Hm IH Hmn. unfold Z.succ in *. rewrite off_succ, IH, group_len by lia. lia.
Qed.

Lemma pays_len q : 0 <= q < p -> zlen (pays q) = n q.
Proof.
  intros Hq. unfold pays. fold (off (group q) (ns q)). rewrite group_off by (auto; unfold ns; pose proof (zlen_nonneg (k_sp (pkg q))); lia). destruct (send_ok q Hq) as (_ & (_ & _ & -> & _) & _). reflexivity.
Qed.

Lemma pay_cat q m : 0 <= q < p -> 0 <= m <= ns q -> cat (pay q) (zn 0 (k_ss (pkg q)) m) = cat (fun i => flat_map (column (mat (src q i))) (zrange (from q i) (upto q i))) m.
Proof.
  intros Hq Hm. rewrite <- group_off by assumption. unfold pay, pays. rewrite (cat_concat (group q)) by exact Hm. rewrite concat_cat. apply cat_ext. intros i _. unfold group. symmetry. apply flat_map_concat_map.
Qed.

Lemma pay_all q : 0 <= q < p -> cat (pay q) (n q) = cat (fun i => flat_map (column (mat (src q i))) (zrange (from q i) (upto q i))) (ns q).
Proof.
  intros Hq. rewrite <- pay_cat by (auto; unfold ns; pose proof (zlen_nonneg (k_sp (pkg q))); lia). destruct (send_ok q Hq) as (_ & (_ & _ & -> & _) & _). reflexivity.
Qed.

(** Every item is a column of another rank that refers to a column of this rank. *)
Lemma pay_at q j : 0 <= q < p -> 0 <= j < n q -> exists r k, 0 <= r < p /\ r <> q /\ 0 <= k < zlen (pm_map (mat r)) /\ pay q j = column (mat r) k /\
  zn 0 (pm_map (mat r)) k = zn 0 (pm_cs (mat q)) 0 + zn 0 (k_se (pkg q)) j.
Proof.
  intros Hq Hj. destruct (send_ok q Hq) as (_ & Sg & Key). destruct (segments_owner _ _ _ j (zlen_nonneg _) Sg Hj) as (i & Hi & Bj). fold (ns q) in Hi.
  destruct (match_ok q i Hq Hi) as (Hr & B1 & B2 & E1 & E2). set (t := j - zn 0 (k_ss (pkg q)) i). exists (src q i), (from q i + t).
  assert (Em : zn 0 (pm_map (mat (src q i))) (from q i + t) = zn 0 (pm_cs (mat q)) 0 + zn 0 (k_se (pkg q)) j) by (rewrite E2 by lia; f_equal; f_equal; lia).
  split; [exact Hr|]. split; [|split; [lia|split; [|exact Em]]].
  - intros Eq. destruct (tr_valid q Hq) as (V & _). destruct (pv_map _ V (from q i + t)) as (_ & Nm); [rewrite Eq in B2; lia|]. rewrite Eq in Em. rewrite Em in Nm. pose proof (Key j Hj). pose proof (pv_dcols _ V). lia.
  - unfold pay, pays. replace j with (off (group q) i + t) by (rewrite group_off by lia; lia). rewrite (zn_cat [] (group q) (ns q) i t) by (rewrite ?group_len by assumption; lia).
    unfold group. rewrite (zn_map 0 []) by (rewrite zlen_zrange by lia; lia). now rewrite zn_zrange by lia.
Qed.

(* ---------------------------------------------------------------- communication *)

Let world_ti := map (fun r => sizes (mat r)) (zrange 0 p).
Let world_tj := map (fun r => map fst (cat (column (mat r)) (zlen (pm_map (mat r))))) (zrange 0 p).
Let world_td := map (fun r => map snd (cat (column (mat r)) (zlen (pm_map (mat r))))) (zrange 0 p).
Let world_rs := map (fun r => map (fun i => off (column (mat r)) (zn 0 (k_rs (pkg r)) i)) (zrange 0 (zlen (k_rp (pkg r)) + 1))) (zrange 0 p).

Lemma zn_pkg {X} (d : X) (f : commpkg -> X) r : 0 <= r < p -> zn d (map f ks) r = f (pkg r).
Proof. intros Hr. rewrite (zn_map no_pkg d) by (rewrite tr_ks; exact Hr). reflexivity. Qed.

Lemma counts_ok q : 0 <= q < p -> receive 0 (map k_rp ks) (map k_rs ks) world_ti (k_sp (pkg q)) (k_ss (pkg q)) q = Ok (map (fun j => zlen (pay q j)) (zrange 0 (n q))).
Proof.
  intros Hq. pose proof tr_p. destruct (send_ok q Hq) as (_ & Sg & _).
  rewrite (receive_ok 0 _ _ _ _ _ _ (fun i => map zlen (group q i))).
  - f_equal. fold (ns q). rewrite <- map_cat. fold (pays q). rewrite <- (map_zn_zrange [] (pays q)) at 1. rewrite map_map, pays_len by exact Hq. reflexivity.
  - intros i Hi. fold (ns q) in Hi. fold (src q i). destruct (match_ok q i Hq Hi) as (Hr & B1 & B2 & _). destruct (slot_ok q i Hq Hi) as (Bs & Es).
    destruct (pk_recv _ _ HP _ _ _ (get_mat _ Hr) (get_pkg _ Hr)) as (Nd & (Ls & _)).
    rewrite (message_ok 0 _ _ _ _ _ (slot q i)); rewrite ?zlen_map, ?tr_ks; unfold world_ti; rewrite ?zlen_map_zrange by lia; rewrite ?zn_pkg by exact Hr; rewrite ?zn_map_zrange by exact Hr; auto; try lia.
    + f_equal. unfold group. rewrite map_map. apply map_ext_in. intros k Hk. apply In_zrange in Hk. fold (from q i) (upto q i) in Hk. apply sizes_at. lia.
    + fold (from q i). lia.
    + rewrite sizes_len. fold (upto q i). lia.
  - destruct Sg as (L & _). exact L.
  - intros i Hi. rewrite off_map. symmetry. now apply group_off.
Qed.

Lemma data_ok {V} (d : V) (f : Z * T -> V) q : 0 <= q < p ->
  receive d (map k_rp ks) world_rs (map (fun r => map f (cat (column (mat r)) (zlen (pm_map (mat r))))) (zrange 0 p)) (k_sp (pkg q))
    (map (fun i => off (pay q) (zn 0 (k_ss (pkg q)) i)) (zrange 0 (ns q + 1))) q = Ok (map f (cat (pay q) (n q))).
Proof.
  intros Hq. pose proof tr_p. assert (Hns : 0 <= ns q) by apply zlen_nonneg.
  rewrite (receive_ok d _ _ _ _ _ _ (fun i => map f (flat_map (column (mat (src q i))) (zrange (from q i) (upto q i))))).
  - f_equal. fold (ns q). rewrite <- map_cat. now rewrite pay_all.
  - intros i Hi. fold (ns q) in Hi. fold (src q i). destruct (match_ok q i Hq Hi) as (Hr & B1 & B2 & _). destruct (slot_ok q i Hq Hi) as (Bs & Es).
    destruct (pk_recv _ _ HP _ _ _ (get_mat _ Hr) (get_pkg _ Hr)) as (Nd & _). pose proof (zlen_nonneg (pm_map (mat (src q i)))) as Hc.
    assert (L1 : zn 0 (zn [] world_rs (src q i)) (slot q i) = off (column (mat (src q i))) (from q i)) by (unfold world_rs; rewrite zn_map_zrange by exact Hr; rewrite zn_map_zrange by lia; reflexivity).
    assert (L2 : zn 0 (zn [] world_rs (src q i)) (slot q i + 1) = off (column (mat (src q i))) (upto q i)) by (unfold world_rs; rewrite zn_map_zrange by exact Hr; rewrite zn_map_zrange by lia; reflexivity).
    rewrite (message_ok d _ _ _ _ _ (slot q i)); rewrite ?L1, ?L2; rewrite ?zlen_map, ?tr_ks; unfold world_rs; rewrite ?zlen_map_zrange by lia; rewrite ?zn_pkg by exact Hr; rewrite ?zn_map_zrange by exact Hr; auto; try lia; try (rewrite !zlen_zrange by lia; lia).
    + f_equal. rewrite map_cat, <- (off_map f (column (mat (src q i))) (from q i)), <- (off_map f (column (mat (src q i))) (upto q i)). rewrite cat_slice by lia. now rewrite map_flat_map.
    + rewrite zlen_map, zlen_zrange by lia. lia.
    + apply off_nonneg.
    + rewrite zlen_map. apply off_mono. lia.
  - rewrite zlen_map_zrange by lia. reflexivity.
  - intros i Hi. fold (ns q) in Hi. rewrite zn_map_zrange by lia. unfold off at 1. rewrite pay_cat by auto. rewrite off_map. reflexivity.
Qed.

(* ---------------------------------------------------------------- the result of a rank *)

Let cols q := c_cols (pm_diag (mat q)).
Let own q : list (entry S) := map (fun e => (zn 0 (pm_cs (mat q)) 0 + ecol e, zn 0 (pm_rs (mat q)) 0 + erow e, evalue e)) (entries (pm_diag (mat q))).
Let got q : list (entry S) := flat_map (fun j => map (fun x : Z * T => (zn 0 (pm_cs (mat q)) 0 + zn 0 (k_se (pkg q)) j, fst x, snd x)) (pay q j)) (zrange 0 (n q)).

Lemma list3 (l : list Z) : zlen l = 3 -> [zn 0 l 0; zn 0 l 1; zn 0 l 2] = l.
Proof.
  intros H. destruct l as [|a [|b [|c [|d l]]]]; try discriminate; [reflexivity|]. rewrite !zlen_cons in H. pose proof (zlen_nonneg l). lia.
Qed.

Lemma transposed_ok q cm (g : Z -> list (Z * T)) : 0 <= q < p -> increasing cm ->
  (forall c, In c cm -> 0 <= c < M /\ ~ (zn 0 (pm_rs (mat q)) 0 <= c < zn 0 (pm_rs (mat q)) 1)) ->
  (forall e x, 0 <= e < cols q -> In x (g e) -> 0 <= fst x < zlen cm) ->
  exists B, transposed reorder (mat q) (map (off g) (zrange 0 (cols q + 1))) (map fst (cat g (cols q))) (map snd (cat g (cols q))) cm = Ok B /\
    pm_valid B /\ pm_rs B = pm_cs (mat q) /\ pm_cs B = pm_rs (mat q) /\
    Permutation (pm_entries B) (own q ++ flat_map (fun e => map (fun x : Z * T => (zn 0 (pm_cs (mat q)) 0 + e, zn 0 cm (fst x), snd x)) (g e)) (zrange 0 (cols q))).
Proof.
  intros Hq Inc Hcm Hg. destruct (tr_valid q Hq) as (V & EM & EN). destruct (get3 _ (pv_rs _ V)) as (R0 & R1 & R2). destruct (get3 _ (pv_cs _ V)) as (C0 & C1 & C2).
  unfold transposed. rewrite R0, R1, C0, C1. cbn [bind]. destruct (sp_transpose_spec _ (pv_diag _ V)) as (D & ED & VD & DR & DC & _ & PD). rewrite ED. cbn [bind].
  pose proof (pv_dcols _ V) as Ec. pose proof (pv_drows _ V) as Er. pose proof (pv_crange _ V) as Hc. pose proof (pv_rrange _ V) as Hr. assert (Hcols : 0 <= cols q) by (unfold cols; lia).
  pose proof (zlen_nonneg cm) as Hz. fold (cols q). rewrite (sp_make_rows (cols q) (zlen cm) g Hcols Hz Hg _ _ _ eq_refl eq_refl eq_refl). cbn [bind].
  pose proof (csr_of_rows_valid (cols q) (zlen cm) g Hcols Hz Hg) as VO. unfold pm_gcols, pm_grows. rewrite (list3 _ (pv_cs _ V)), (list3 _ (pv_rs _ V)).
  destruct (pm_make_ok reorder Hre (pm_cs (mat q)) (pm_rs (mat q)) D (csr_of_rows (cols q) (zlen cm) g) cm VD VO) as (B & EB & VB & E1 & E2 & E3 & E4 & E5).
  { unfold layout. cbn [c_rows c_cols csr_of_rows]. refine (conj (pv_cs _ V) (conj (pv_rs _ V) (conj Hc (conj Hr (conj _ (conj _ (conj _ (conj eq_refl (conj _ _))))))))).
    - lia.
    - lia.
    - left. unfold cols. lia.
    - intros i Hi. rewrite EM. apply Hcm. now apply zn_In.
    - intros i Hi. apply Inc; lia. }
  exists B. split; [exact EB|]. split; [exact VB|]. split; [exact E1|]. split; [exact E2|]. unfold pm_entries. rewrite E1, E2, E3, E4, E5. apply Permutation_app.
  - destruct (Hre D VD) as (_ & SE). rewrite <- (same_entries_perm _ _ SE), PD. unfold own. rewrite map_map. reflexivity.
  - rewrite csr_of_rows_entries, map_flat_map. unfold row_to_entries. rewrite (flat_map_ext_in _ (fun e => map (fun x : Z * T => (zn 0 (pm_cs (mat q)) 0 + e, zn 0 cm (fst x), snd x)) (g e))); [reflexivity|].
    intros e _. rewrite map_map. reflexivity.
Qed.

Lemma several_ok q : 0 <= q < p -> exists B,
  (' (oi, oj, od, cnt) <- place (cols q) (pkg q) (map (fun j => zlen (pay q j)) (zrange 0 (n q))) (map fst (cat (pay q) (n q))) (map snd (cat (pay q) (n q))) (map (off (sorted_row (pkg q) (n q) (pay q))) (zrange 0 (cols q + 1))) ;;
   cm <- sorted_columns srt (map fst (cat (pay q) (n q))) cnt ;;
   oj <- renumber_columns bsearch cm oj cnt ;;
   transposed reorder (mat q) oi oj od cm) = Ok B /\
  pm_valid B /\ pm_rs B = pm_cs (mat q) /\ pm_cs B = pm_rs (mat q) /\ Permutation (pm_entries B) (own q ++ got q).
Proof.
  intros Hq. destruct (tr_valid q Hq) as (V & EM & EN). destruct (send_ok q Hq) as (_ & Sg & Key). assert (Hcols : 0 <= cols q) by exact (cv_cols (pv_diag _ V)). assert (Hn : 0 <= n q) by apply zlen_nonneg.
  set (sr := sorted_row (pkg q) (n q) (pay q)). unfold sr. rewrite (place_ok (pkg q) (cols q) (n q) (pay q) Hcols eq_refl Sg Key). fold sr. cbn [bind].
  set (L := map fst (cat (pay q) (n q))). assert (LL : zlen L = off (pay q) (n q)) by (unfold L; rewrite zlen_map; reflexivity). rewrite <- LL.
  destruct (sorted_columns_ok srt L Hsrt) as (cm & Ecm & Inc & Hin). rewrite Ecm. cbn [bind].
  assert (Ls : zlen L = zlen (cat sr (cols q))) by (rewrite LL; symmetry; exact (sorted_total (pkg q) (cols q) (n q) (pay q) Hcols eq_refl Key)).
  rewrite Ls, renumber_columns_ok. cbn [bind]. set (bs := fun c => bsearch cm c (zlen cm)).
  assert (HL : forall c, In c L -> 0 <= c < M /\ ~ (zn 0 (pm_rs (mat q)) 0 <= c < zn 0 (pm_rs (mat q)) 1)).
  { intros c Ic. unfold L in Ic. apply in_map_iff in Ic. destruct Ic as (x & <- & Ix). unfold cat in Ix. apply in_flat_map in Ix. destruct Ix as (j & Hj & Ix). apply In_zrange in Hj.
    destruct (pay_at q j Hq Hj) as (r & k & Hr & Nr & Hk & Ep & _). rewrite Ep in Ix. unfold column in Ix. apply in_map_iff in Ix. destruct Ix as (y & <- & Iy). cbn [fst].
    unfold col_row, col_entries in Iy. apply in_map_iff in Iy. destruct Iy as (z & <- & Iz). apply filter_In in Iz. destruct Iz as (Iz & _). cbn [fst].
    destruct (tr_valid r Hr) as (Vr & EMr & _). pose proof (entries_in_shape _ (pv_offd _ Vr)) as Sh. unfold in_shape in Sh. rewrite Forall_forall in Sh. destruct (Sh z Iz) as (Hz & _). rewrite (pv_orows _ Vr) in Hz.
    pose proof (pv_rrange _ Vr). pose proof (ds_rows _ _ _ HD r q _ _ Nr (get_mat r Hr) (get_mat q Hq)) as Ap. unfold apart in Ap. lia. }
  assert (Hsr : forall e x, 0 <= e < cols q -> In x (sr e) -> In (fst x) L).
  { intros e x He Ix. unfold sr, sorted_row, cat in Ix. apply in_flat_map in Ix. destruct Ix as (j & Hj & Ix). destruct (_ =? _); [|destruct Ix]. unfold L, cat. apply in_map. apply in_flat_map. exists j. auto. }
  assert (Hbx : forall c, In c L -> 0 <= bs c < zlen cm /\ zn 0 cm (bs c) = c) by (intros c Ic; apply (bsearch_ok bsearch Hbs cm c Inc); now apply Hin).
  destruct (transposed_ok q cm (fun e => renamed bs (sr e)) Hq Inc) as (B & EB & VB & E1 & E2 & PB).
  - intros c Ic. apply HL. now apply Hin.
  - intros e x He Ix. unfold renamed in Ix. apply in_map_iff in Ix. destruct Ix as (y & <- & Iy). cbn [fst]. apply Hbx. exact (Hsr e y He Iy).
  - exists B. split; [|split; [exact VB|split; [exact E1|split; [exact E2|]]]].
    + rewrite <- EB. f_equal.
      * apply map_ext. intros i. unfold renamed. symmetry. apply off_map.
      * unfold renamed. now rewrite map_cat.
      * unfold renamed. rewrite <- (map_cat (fun x => (bs (fst x), snd x))), map_map. reflexivity.
    + rewrite PB. apply Permutation_app_head.
      transitivity (flat_map (fun e => map (fun x : Z * T => (zn 0 (pm_cs (mat q)) 0 + e, fst x, snd x)) (sr e)) (zrange 0 (cols q))).
      { apply flat_map_perm_in. intros e He. apply In_zrange in He. unfold renamed. rewrite map_map. cbn [fst snd]. rewrite (map_ext_in _ (fun x : Z * T => (zn 0 (pm_cs (mat q)) 0 + e, fst x, snd x))); [reflexivity|].
        intros x Ix. destruct (Hbx (fst x) (Hsr e x He Ix)) as (_ & ->). reflexivity. }
      unfold sr, sorted_row, cat, got.
      rewrite (flat_map_ext_in _ (fun e => flat_map (fun j => if zn 0 (k_se (pkg q)) j =? e then map (fun x : Z * T => (zn 0 (pm_cs (mat q)) 0 + e, fst x, snd x)) (pay q j) else []) (zrange 0 (n q)))).
      2:{ intros e _. rewrite map_flat_map. apply flat_map_ext_in. intros j _. destruct (_ =? _); reflexivity. }
      rewrite flat_map_exchange. apply flat_map_perm_in. intros j Hj. apply In_zrange in Hj.
      rewrite (flat_map_one (zn 0 (k_se (pkg q)) j) (fun e => map (fun x : Z * T => (zn 0 (pm_cs (mat q)) 0 + e, fst x, snd x)) (pay q j))); [reflexivity|apply NoDup_zrange|]. apply In_zrange. exact (Key j Hj).
Qed.

Lemma single_ok q : 0 <= q < p -> p = 1 -> exists B,
  (oi <- vec (cols q + 1) 0 ;; transposed reorder (mat q) oi [] [] []) = Ok B /\
  pm_valid B /\ pm_rs B = pm_cs (mat q) /\ pm_cs B = pm_rs (mat q) /\ Permutation (pm_entries B) (own q ++ got q).
Proof.
  intros Hq E. destruct (tr_valid q Hq) as (V & _). assert (Hcols : 0 <= cols q) by exact (cv_cols (pv_diag _ V)). rewrite vec_ok by lia. cbn [bind].
  destruct (transposed_ok q [] (fun _ => []) Hq) as (B & EB & VB & E1 & E2 & PB).
  - intros i j H0 H. change (zlen (@nil Z)) with 0 in H. lia.
  - intros c [].
  - intros e x _ [].
  - exists B. split; [|split; [exact VB|split; [exact E1|split; [exact E2|]]]].
    + rewrite <- EB. assert (Ez : forall m, cat (fun _ => @nil (Z * T)) m = []) by (intros m; unfold cat; apply flat_map_nils). rewrite Ez. f_equal.
      apply (list_ext 0); [rewrite zlen_map_zrange by lia; rewrite zlen_repeat; lia|]. intros i Hi. rewrite zlen_repeat in Hi. rewrite zn_map_zrange by lia. unfold off. rewrite Ez, zn_repeat by lia. reflexivity.
    + rewrite PB. cbn [map]. rewrite flat_map_nils. assert (En : n q = 0).
      { destruct (Z.eq_dec (n q) 0) as [Z0|Z0]; [exact Z0|]. assert (0 <= n q) by apply zlen_nonneg. destruct (pay_at q 0 Hq) as (r & _ & Hr & Nr & _); lia. }
      unfold got. rewrite En. reflexivity.
Qed.

(* ---------------------------------------------------------------- all ranks *)

Lemma par_transpose_run : exists Bs, par_transpose srt bsearch reorder ks As = Ok Bs /\ zlen Bs = p /\
  forall q, 0 <= q < p -> let B := zn pm_none Bs q in pm_valid B /\ pm_rs B = pm_cs (mat q) /\ pm_cs B = pm_rs (mat q) /\ Permutation (pm_entries B) (own q ++ got q).
Proof.
  pose proof tr_p as Hp. unfold par_transpose. fold p. destruct (Z.ltb_spec 1 p) as [H1|H1].
  - rewrite (ranks_ok p _ (fun r => (sizes (mat r), map fst (cat (column (mat r)) (zlen (pm_map (mat r)))), map snd (cat (column (mat r)) (zlen (pm_map (mat r))))))).
    2:{ intros r Hr. rewrite get_mat by exact Hr. cbn [bind]. apply outgoing_ok. now apply tr_valid. }
    cbn [bind]. rewrite !map_map. cbn [fst snd]. fold world_ti.
    rewrite (ranks_ok p _ (fun q => map (fun j => zlen (pay q j)) (zrange 0 (n q)))).
    2:{ intros r Hr. rewrite get_pkg by exact Hr. cbn [bind]. now apply counts_ok. }
    cbn [bind]. set (tss := fun q => map (fun i => off (pay q) (zn 0 (k_ss (pkg q)) i)) (zrange 0 (ns q + 1))). set (oi := fun q => map (off (sorted_row (pkg q) (n q) (pay q))) (zrange 0 (cols q + 1))).
    rewrite (ranks_ok p _ (fun q => (tss q, oi q))).
    2:{ intros r Hr. rewrite get_mat, get_pkg by exact Hr. cbn [bind]. rewrite (get_ok []) by (rewrite zlen_map_zrange; lia). cbn [bind]. rewrite zn_map_zrange by exact Hr. destruct (send_ok r Hr) as (_ & Sg & Key).
        apply row_starts_ok; auto. exact (cv_cols (pv_diag _ (proj1 (tr_valid r Hr)))). }
    cbn [bind].
    rewrite (ranks_ok p _ (fun r => map (fun i => off (column (mat r)) (zn 0 (k_rs (pkg r)) i)) (zrange 0 (zlen (k_rp (pkg r)) + 1)))).
    2:{ intros r Hr. rewrite get_pkg by exact Hr. cbn [bind]. unfold world_ti. rewrite (get_ok []) by (rewrite zlen_map_zrange; lia). cbn [bind]. rewrite zn_map_zrange by exact Hr.
        apply message_starts_ok. exact (proj2 (pk_recv _ _ HP _ _ _ (get_mat r Hr) (get_pkg r Hr))). }
    cbn [bind]. fold world_rs.
    assert (Gst : forall r, 0 <= r < p -> get (map (fun q => (tss q, oi q)) (zrange 0 p)) r = Ok (tss r, oi r)) by (intros r Hr; rewrite (get_ok ([], [])) by (rewrite zlen_map_zrange; lia); now rewrite zn_map_zrange).
    rewrite (ranks_ok p _ (fun q => map fst (cat (pay q) (n q)))).
    2:{ intros r Hr. rewrite get_pkg by exact Hr. cbn [bind]. rewrite Gst by exact Hr. cbn [bind fst]. unfold tss. now apply data_ok. }
    cbn [bind]. rewrite (ranks_ok p _ (fun q => map snd (cat (pay q) (n q)))).
    2:{ intros r Hr. rewrite get_pkg by exact Hr. cbn [bind]. rewrite Gst by exact Hr. cbn [bind fst]. unfold tss. now apply data_ok. }
    cbn [bind]. apply (ranks_ex pm_none (fun q B => pm_valid B /\ pm_rs B = pm_cs (mat q) /\ pm_cs B = pm_rs (mat q) /\ Permutation (pm_entries B) (own q ++ got q))); [exact Hp|].
    intros q Hq. rewrite get_mat, get_pkg by exact Hq. cbn [bind]. rewrite Gst by exact Hq. cbn [bind snd]. rewrite !(get_ok []) by (rewrite zlen_map_zrange; lia). cbn [bind]. rewrite !zn_map_zrange by exact Hq. unfold oi.
    exact (several_ok q Hq).
  - apply (ranks_ex pm_none (fun q B => pm_valid B /\ pm_rs B = pm_cs (mat q) /\ pm_cs B = pm_rs (mat q) /\ Permutation (pm_entries B) (own q ++ got q))); [exact Hp|].
    intros q Hq. rewrite get_mat by exact Hq. cbn [bind]. apply single_ok; [exact Hq|lia].
Qed.

(* ---------------------------------------------------------------- entries *)

Let item r k : list (entry S) := map (fun x : Z * T => (zn 0 (pm_map (mat r)) k, fst x, snd x)) (column (mat r) k).
Let seg r i := flat_map (item r) (zrange (zn 0 (k_rs (pkg r)) i) (zn 0 (k_rs (pkg r)) (i + 1))).
Let away r : list (entry S) := map (fun e => (zn 0 (pm_map (mat r)) (ecol e), zn 0 (pm_rs (mat r)) 0 + erow e, evalue e)) (entries (pm_offd (mat r))).

Lemma flat_map_shift {Y} (f g : Z -> list Y) a b a' b' : a <= b -> b - a = b' - a' -> (forall t, 0 <= t < b - a -> f (a + t) = g (a' + t)) -> flat_map f (zrange a b) = flat_map g (zrange a' b').
Proof.
  intros Hab Hl H. rewrite !flat_map_concat_map. f_equal. apply (list_ext []); [rewrite !zlen_map, !zlen_zrange by lia; lia|]. intros t Ht. rewrite zlen_map, zlen_zrange in Ht by lia.
  rewrite !(zn_map 0 []) by (rewrite zlen_zrange by lia; lia). rewrite !zn_zrange by lia. now apply H.
Qed.

Lemma flat_map_index {Y} (h : Z -> list Y) (l : list Z) : flat_map (fun i => h (zn 0 l i)) (zrange 0 (zlen l)) = flat_map h l.
Proof. rewrite !flat_map_concat_map. f_equal. rewrite <- (map_zn_zrange 0 l) at 2. now rewrite map_map. Qed.

Lemma got_segments q : 0 <= q < p -> got q = flat_map (fun r => seg r (position (k_rp (pkg r)) q 0)) (k_sp (pkg q)).
Proof.
  intros Hq. destruct (send_ok q Hq) as (_ & Sg & _). rewrite <- flat_map_index. fold (ns q). unfold got.
  set (f := fun j => map (fun x : Z * T => (zn 0 (pm_cs (mat q)) 0 + zn 0 (k_se (pkg q)) j, fst x, snd x)) (pay q j)). assert (Hns : 0 <= ns q) by apply zlen_nonneg.
  pose proof (cat_segments_flat f _ _ _ Hns Sg (ns q) ltac:(lia)) as E. pose proof Sg as (_ & _ & En & _). rewrite En in E. fold (cat f (n q)). rewrite <- E. apply flat_map_ext_in. intros i Hi. apply In_zrange in Hi.
  destruct (match_ok q i Hq Hi) as (Hr & B1 & B2 & E1 & E2). fold (src q i). fold (slot q i). unfold seg. fold (from q i) (upto q i). apply flat_map_shift; [lia|lia|]. intros t Ht. unfold f, item. rewrite E2 by lia.
  assert (Ep : pay q (zn 0 (k_ss (pkg q)) i + t) = column (mat (src q i)) (from q i + t)); [|now rewrite Ep].
  unfold pay, pays. rewrite <- group_off by lia. rewrite (zn_cat [] (group q) (ns q) i t) by (rewrite ?group_len by assumption; lia). unfold group. rewrite (zn_map 0 []) by (rewrite zlen_zrange by lia; lia). now rewrite zn_zrange by lia.
Qed.

Lemma away_segments r : 0 <= r < p -> Permutation (away r) (flat_map (fun q => seg r (position (k_rp (pkg r)) q 0)) (k_rp (pkg r))).
Proof.
  intros Hr. destruct (tr_valid r Hr) as (V & _). destruct (pk_recv _ _ HP _ _ _ (get_mat _ Hr) (get_pkg _ Hr)) as (Nd & Sg). set (nr := zlen (k_rp (pkg r))) in *. assert (Hnr : 0 <= nr) by apply zlen_nonneg.
  rewrite <- flat_map_index. fold nr. rewrite (flat_map_ext_in _ (seg r)) by (intros i Hi; apply In_zrange in Hi; now rewrite position_zn by assumption).
  pose proof (cat_segments_flat (item r) _ _ _ Hnr Sg nr ltac:(lia)) as E. pose proof Sg as (_ & _ & En & _). rewrite En in E. unfold seg. fold (cat (fun i => flat_map (item r) (zrange (zn 0 (k_rs (pkg r)) i) (zn 0 (k_rs (pkg r)) (i + 1)))) nr). rewrite E.
  unfold away, cat. rewrite <- (pv_ocols _ V).
  assert (Sh : forall e, In e (entries (pm_offd (mat r))) -> 0 <= ecol e < c_cols (pm_offd (mat r))).
  { intros e He. pose proof (entries_in_shape _ (pv_offd _ V)) as Sh. unfold in_shape in Sh. rewrite Forall_forall in Sh. now apply Sh. }
  rewrite <- (Permutation_buckets ecol (c_cols (pm_offd (mat r))) (entries (pm_offd (mat r))) Sh) at 1. rewrite map_flat_map. apply flat_map_perm_in. intros k _. unfold item, column, col_row, col_entries. rewrite !map_map. cbn [fst snd].
  rewrite (map_ext_in _ (fun e => (zn 0 (pm_map (mat r)) k, erow e + zn 0 (pm_rs (mat r)) 0, evalue e))); [reflexivity|]. intros e He. apply filter_In in He. destruct He as (_ & He). apply Z.eqb_eq in He. rewrite He, Z.add_comm. reflexivity.
Qed.

Lemma partners q r : 0 <= q < p -> 0 <= r < p -> mem (k_sp (pkg q)) r = mem (k_rp (pkg r)) q.
Proof.
  intros Hq Hr. apply eq_true_iff_eq. rewrite !mem_In. split; intros I; destruct (In_zn 0 _ _ I) as (i & Hi & E).
  - destruct (tr_to q i Hq Hi) as (_ & I'). rewrite E in I'. exact I'.
  - destruct (tr_from r i Hr Hi) as (_ & I'). rewrite E in I'. exact I'.
Qed.

Lemma exchanged : Permutation (flat_map got (zrange 0 p)) (flat_map away (zrange 0 p)).
Proof.
  set (h := fun q r => if mem (k_rp (pkg r)) q then seg r (position (k_rp (pkg r)) q 0) else []).
  transitivity (flat_map (fun q => flat_map (h q) (zrange 0 p)) (zrange 0 p)).
  - apply flat_map_perm_in. intros q Hq. apply In_zrange in Hq. rewrite got_segments by exact Hq. rewrite (flat_map_members p).
    + rewrite (flat_map_ext_in _ (h q)); [reflexivity|]. intros r Hr. apply In_zrange in Hr. unfold h. now rewrite partners.
    + now apply send_ok.
    + intros r I. destruct (In_zn 0 _ _ I) as (i & Hi & E). destruct (tr_to q i Hq Hi) as (B & _). rewrite E in B. exact B.
  - rewrite flat_map_exchange. apply flat_map_perm_in. intros r Hr. apply In_zrange in Hr. rewrite away_segments by exact Hr. symmetry. rewrite (flat_map_members p).
    + reflexivity.
    + exact (proj1 (pk_recv _ _ HP _ _ _ (get_mat _ Hr) (get_pkg _ Hr))).
    + intros q I. destruct (In_zn 0 _ _ I) as (i & Hi & E). destruct (tr_from r i Hr Hi) as (B & _). rewrite E in B. exact B.
Qed.

Theorem par_transpose_ok : exists Bs, par_transpose srt bsearch reorder ks As = Ok Bs /\ zlen Bs = zlen As /\ distributed N M Bs /\
  (forall r A B, get As r = Ok A -> get Bs r = Ok B -> pm_rs B = pm_cs A /\ pm_cs B = pm_rs A) /\
  Permutation (flat_map pm_entries Bs) (map (fun e => (ecol e, erow e, evalue e)) (flat_map pm_entries As)).
Proof.
  destruct par_transpose_run as (Bs & ER & LB & HB). pose proof tr_p as Hp. exists Bs. split; [exact ER|]. split; [exact LB|].
  assert (GB : forall r B, get Bs r = Ok B -> 0 <= r < p /\ B = zn pm_none Bs r) by (intros r B E; apply (get_Ok_inv pm_none) in E; rewrite LB in E; exact E).
  split; [constructor|split].
  - intros r B E. destruct (GB r B E) as (Hr & ->). destruct (HB r Hr) as (V & E1 & E2 & _). destruct (tr_valid r Hr) as (_ & G1 & G2). split; [exact V|]. unfold pm_grows, pm_gcols. rewrite E1, E2. auto.
  - intros r q B C Nq EB EC. destruct (GB r B EB) as (Hr & ->). destruct (GB q C EC) as (Hq & ->). destruct (HB r Hr) as (_ & -> & _). destruct (HB q Hq) as (_ & -> & _). exact (ds_cols _ _ _ HD r q _ _ Nq (get_mat r Hr) (get_mat q Hq)).
  - intros r q B C Nq EB EC. destruct (GB r B EB) as (Hr & ->). destruct (GB q C EC) as (Hq & ->). destruct (HB r Hr) as (_ & _ & -> & _). destruct (HB q Hq) as (_ & _ & -> & _). exact (ds_rows _ _ _ HD r q _ _ Nq (get_mat r Hr) (get_mat q Hq)).
  - intros r A B EA EB. destruct (GB r B EB) as (Hr & ->). rewrite (get_mat r Hr) in EA. injection EA as <-. destruct (HB r Hr) as (_ & E1 & E2 & _). auto.
  - transitivity (flat_map (fun q => own q ++ got q) (zrange 0 p)).
    { rewrite <- (map_zn_zrange pm_none Bs), LB, flat_map_concat_map, map_map, <- flat_map_concat_map. apply flat_map_perm_in. intros q Hq. apply In_zrange in Hq. now apply HB. }
    rewrite flat_map_add, exchanged, <- flat_map_add. rewrite <- (map_zn_zrange pm_none As), flat_map_concat_map, (flat_map_concat_map _ (map _ _)), map_map, <- !flat_map_concat_map. fold p. rewrite map_flat_map.
    rewrite (flat_map_ext_in _ (fun q => map (fun e => (ecol e, erow e, evalue e)) (pm_entries (zn pm_none As q)))); [reflexivity|]. intros q _. unfold pm_entries, own, away. rewrite map_app, !map_map. reflexivity.
Qed.

Theorem par_transpose_mat (R : ring_laws S) Bs : par_transpose srt bsearch reorder ks As = Ok Bs -> forall i j, world_mat Bs i j = world_mat As j i.
Proof.
  intros E i j. destruct par_transpose_ok as (Bs' & E' & _ & _ & _ & P). rewrite E in E'. injection E' as <-. unfold world_mat. rewrite (mat_of_perm R _ _ i j P). apply mat_of_swap. exact R.
Qed.

End Ranks.
