(** The loops of AdjToLaplacian, for every valid matrix and every arithmetic. *)

From Coq Require Import ZArith List Bool Lia.
From Verif Require Import Base Scalar Spec Sparse CsrFacts Vec Basics BasicsSpec QrProofs.
Import ListNotations.
Open Scope Z_scope.

Section LapProofs.
Context {S : scalar}.
Notation T := (car S).
Implicit Types (A : csr S).

Lemma of_int_succ n : 0 <= n -> @of_int S (n + 1) = sadd (of_int n) s1.
Proof. intros H. destruct n as [|p|p]; [reflexivity| |lia]. cbn [of_int Z.add]. rewrite Pos.add_1_r, Pos.iter_succ. reflexivity. Qed.

(** The last diagonal position among a..b-1, the number of other positions *)
Definition last_diag A (i a b : Z) : Z := fold_left (fun d k => if idx A k =? i then k else d) (zrange a b) (-1).
Definition off A (i a b : Z) : Z := zlen (filter (fun k => negb (idx A k =? i)) (zrange a b)).

Lemma last_diag_snoc A i a k : a <= k -> last_diag A i a (k + 1) = if idx A k =? i then k else last_diag A i a k.
Proof. intros H. unfold last_diag. rewrite (zrange_snoc a (k + 1)) by lia. rewrite fold_left_app. replace (k + 1 - 1) with k by lia. reflexivity. Qed.
Lemma off_snoc A i a k : a <= k -> off A i a (k + 1) = if idx A k =? i then off A i a k else off A i a k + 1.
Proof.
  intros H. unfold off. rewrite (zrange_snoc a (k + 1)) by lia. rewrite filter_app, zlen_app. replace (k + 1 - 1) with k by lia. cbn [filter].
  destruct (idx A k =? i); cbn [negb]; [rewrite zlen_nil|rewrite zlen_cons, zlen_nil]; lia.
Qed.
Lemma off_nonneg A i a b : 0 <= off A i a b.
Proof. apply zlen_nonneg. Qed.

Lemma last_diag_range A i a b : 0 <= a <= b -> last_diag A i a b = -1 /\ (forall k, a <= k < b -> idx A k <> i) \/
  a <= last_diag A i a b < b /\ idx A (last_diag A i a b) = i.
Proof.
  intros H. assert (G : forall n : nat, last_diag A i a (a + Z.of_nat n) = -1 /\ (forall k, a <= k < a + Z.of_nat n -> idx A k <> i) \/
    a <= last_diag A i a (a + Z.of_nat n) < a + Z.of_nat n /\ idx A (last_diag A i a (a + Z.of_nat n)) = i).
  { induction n as [|n IH].
    - left. unfold last_diag. rewrite zrange_empty by lia. split; [reflexivity|lia].
    - replace (a + Z.of_nat (Datatypes.S n)) with (a + Z.of_nat n + 1) by lia. rewrite last_diag_snoc by lia.
      destruct (Z.eqb_spec (idx A (a + Z.of_nat n)) i) as [E|E].
      + right. split; [lia|exact E].
      + destruct IH as [(-> & G)|(G1 & G2)]; [left|right; split; [lia|exact G2]]. split; [reflexivity|]. intros k Hk.
        destruct (Z.eq_dec k (a + Z.of_nat n)) as [->|]; [exact E|apply G; lia]. }
  specialize (G (Z.to_nat (b - a))). rewrite Z2Nat.id in G by lia. now replace (a + (b - a)) with b in G by lia.
Qed.

Definition new_val A (p : Z * Z) : T :=
  let '(i, k) := p in
  if idx A k =? i then if k =? last_diag A i (ptr A i) (ptr A (i + 1)) then of_int (off A i (ptr A i) (ptr A (i + 1))) else val A k
  else sopp s1.

Definition has_diag A i : Prop := exists k, ptr A i <= k < ptr A (i + 1) /\ idx A k = i.

Lemma inner_loop A i (data : list T) : csr_valid A -> 0 <= i < c_rows A -> zlen data = nnz A ->
  exists data', for_ (ptr A i) (ptr A (i + 1)) (-1, @s0 S, data) (fun j st =>
      let '(diag_index, val, data) := st in
      col <- get (c_idx A) j ;;
      if col =? i then Ok (j, val, data)
      else data <- set data j (sopp s1) ;; Ok (diag_index, sadd val s1, data))
    = Ok (last_diag A i (ptr A i) (ptr A (i + 1)), of_int (off A i (ptr A i) (ptr A (i + 1))), data') /\
    zlen data' = nnz A /\
    forall k, 0 <= k < nnz A -> zn s0 data' k = if (ptr A i <=? k) && (k <? ptr A (i + 1)) && negb (idx A k =? i) then sopp s1 else zn s0 data k.
Proof.
  intros V Hi Hl. pose proof (ptr_bounds A i V ltac:(lia)) as B1. pose proof (ptr_bounds A (i + 1) V ltac:(lia)) as B2. pose proof (cv_mono V i Hi) as M.
  match goal with |- exists _, ?f = _ /\ _ => enough (H : returns f (fun st => exists data', st = (last_diag A i (ptr A i) (ptr A (i + 1)), of_int (off A i (ptr A i) (ptr A (i + 1))), data') /\ zlen data' = nnz A /\
    forall k, 0 <= k < nnz A -> zn s0 data' k = if (ptr A i <=? k) && (k <? ptr A (i + 1)) && negb (idx A k =? i) then sopp s1 else zn s0 data k)) end.
  { apply returns_exists in H. destruct H as (st & -> & data' & -> & H1 & H2). exists data'. auto. }
  apply (returns_for (fun r st => exists data', st = (last_diag A i (ptr A i) r, of_int (off A i (ptr A i) r), data') /\ zlen data' = nnz A /\
    forall k, 0 <= k < nnz A -> zn s0 data' k = if (ptr A i <=? k) && (k <? r) && negb (idx A k =? i) then sopp s1 else zn s0 data k)).
  - exact M.
  - exists data. split; [unfold last_diag, off; rewrite zrange_empty by lia; reflexivity|]. split; [exact Hl|]. intros k Hk.
    destruct (Z.leb_spec (ptr A i) k), (Z.ltb_spec k (ptr A i)); try lia; reflexivity.
  - intros j st Hj (data' & -> & Ll & G). rewrite get_idx by (auto; lia). cbn [bind]. rewrite last_diag_snoc, off_snoc by lia.
    destruct (Z.eqb_spec (idx A j) i) as [E|E].
    + cbn [returns]. exists data'. split; [reflexivity|]. split; [exact Ll|]. intros k Hk. rewrite G by exact Hk.
      destruct (Z.eq_dec k j) as [->|]; [rewrite E, Z.eqb_refl; cbn [negb]; now rewrite !andb_false_r|].
      destruct (Z.ltb_spec k j), (Z.ltb_spec k (j + 1)); try lia; reflexivity.
    + rewrite set_ok by lia. cbn [bind returns]. eexists. split; [rewrite of_int_succ by apply off_nonneg; reflexivity|].
      split; [now rewrite zlen_upd|]. intros k Hk. rewrite zn_upd by lia. destruct (Z.eqb_spec k j) as [->|Hne].
      * destruct (Z.leb_spec (ptr A i) j), (Z.ltb_spec j (j + 1)), (Z.eqb_spec (idx A j) i); try lia; reflexivity.
      * rewrite G by exact Hk. destruct (Z.ltb_spec k j), (Z.ltb_spec k (j + 1)); try lia; reflexivity.
  - intros st H. exact H.
Qed.

Lemma lap_row_ok A i (data : list T) : csr_valid A -> 0 <= i < c_rows A -> zlen data = nnz A -> (forall k, ptr A i <= k < ptr A (i + 1) -> zn s0 data k = val A k) ->
  has_diag A i ->
  exists data', lap_row A i data = Ok data' /\ zlen data' = nnz A /\
    forall k, 0 <= k < nnz A -> zn s0 data' k = if (ptr A i <=? k) && (k <? ptr A (i + 1)) then new_val A (i, k) else zn s0 data k.
Proof.
  intros V Hi Hl Hd (k0 & Hk0 & Ek0). pose proof (ptr_bounds A i V ltac:(lia)) as B1. pose proof (ptr_bounds A (i + 1) V ltac:(lia)) as B2. pose proof (cv_mono V i Hi) as M.
  unfold lap_row. rewrite !get_ptr by (auto; lia). cbn [bind]. destruct (inner_loop A i data V Hi Hl) as (data' & -> & Ll & G). cbn [bind].
  destruct (last_diag_range A i (ptr A i) (ptr A (i + 1)) ltac:(lia)) as [(_ & N)|(R & E)]; [now apply N in Ek0|].
  destruct (Z.leb_spec 0 (last_diag A i (ptr A i) (ptr A (i + 1)))); [|lia]. cbn [assert_ bind]. rewrite set_ok by lia. eexists. split; [reflexivity|].
  split; [now rewrite zlen_upd|]. intros k Hk. rewrite zn_upd by lia. unfold new_val. destruct (Z.eqb_spec k (last_diag A i (ptr A i) (ptr A (i + 1)))) as [->|Hne].
  - rewrite E, Z.eqb_refl. destruct (Z.leb_spec (ptr A i) (last_diag A i (ptr A i) (ptr A (i + 1)))), (Z.ltb_spec (last_diag A i (ptr A i) (ptr A (i + 1))) (ptr A (i + 1))); try lia; reflexivity.
  - rewrite G by exact Hk. destruct (Z.leb_spec (ptr A i) k), (Z.ltb_spec k (ptr A (i + 1))); cbn [andb]; try reflexivity.
    destruct (idx A k =? i); cbn [negb]; [apply Hd; lia|reflexivity].
Qed.

Lemma lap_row_fails A i (data : list T) : csr_valid A -> 0 <= i < c_rows A -> zlen data = nnz A -> ~ has_diag A i -> lap_row A i data = Fail FAssert.
Proof.
  intros V Hi Hl N. pose proof (ptr_bounds A i V ltac:(lia)) as B1. pose proof (cv_mono V i Hi) as M.
  unfold lap_row. rewrite !get_ptr by (auto; lia). cbn [bind]. destruct (inner_loop A i data V Hi Hl) as (data' & -> & Ll & G). cbn [bind].
  destruct (last_diag_range A i (ptr A i) (ptr A (i + 1)) ltac:(lia)) as [(-> & _)|(R & E)]; [reflexivity|].
  exfalso. apply N. exists (last_diag A i (ptr A i) (ptr A (i + 1))). auto.
Qed.

Lemma has_diag_dec A i : csr_valid A -> 0 <= i < c_rows A -> has_diag A i \/ ~ has_diag A i.
Proof.
  intros V Hi. pose proof (ptr_bounds A i V ltac:(lia)) as B1. pose proof (cv_mono V i Hi) as M.
  destruct (last_diag_range A i (ptr A i) (ptr A (i + 1)) ltac:(lia)) as [(_ & N)|(R & E)]; [right|left].
  - intros (k & Hk & Ek). now apply N in Ek.
  - eexists. split; eauto.
Qed.

(** The outcome of the loop over the rows *)
Lemma lap_loop A n : csr_valid A -> 0 <= n <= c_rows A -> (forall i, 0 <= i < n -> has_diag A i) ->
  exists data, for_ 0 n (c_val A) (lap_row A) = Ok data /\ zlen data = nnz A /\ (forall i k, 0 <= i < n -> ptr A i <= k < ptr A (i + 1) -> zn s0 data k = new_val A (i, k)) /\ (forall k, ptr A n <= k < nnz A -> zn s0 data k = val A k).
Proof.
  intros V Hn Hd.
  enough (H : returns (for_ 0 n (c_val A) (lap_row A)) (fun data => zlen data = nnz A /\
    (forall i k, 0 <= i < n -> ptr A i <= k < ptr A (i + 1) -> zn s0 data k = new_val A (i, k)) /\
    (forall k, ptr A n <= k < nnz A -> zn s0 data k = val A k))) by now apply returns_exists in H.
  apply (returns_for (fun r data => zlen data = nnz A /\
    (forall i k, 0 <= i < r -> ptr A i <= k < ptr A (i + 1) -> zn s0 data k = new_val A (i, k)) /\
    (forall k, ptr A r <= k < nnz A -> zn s0 data k = val A k))).
  - lia.
  - split; [reflexivity|]. split; [intros; lia|reflexivity].
  - intros i data Hi (Ll & G1 & G2). pose proof (ptr_bounds A i V ltac:(lia)) as B1. pose proof (ptr_bounds A (i + 1) V ltac:(lia)) as B2. pose proof (cv_mono V i ltac:(lia)) as M.
    destruct (lap_row_ok A i data V ltac:(lia) Ll) as (data' & -> & Ll' & G); [intros k Hk; apply G2; lia|apply Hd; lia|]. cbn [returns].
    split; [exact Ll'|]. split.
    + intros i' k Hi' Hk. pose proof (ptr_bounds A i' V ltac:(lia)). pose proof (ptr_bounds A (i' + 1) V ltac:(lia)). rewrite G by lia.
      destruct (Z.eq_dec i' i) as [->|Hne].
      * destruct (Z.leb_spec (ptr A i) k), (Z.ltb_spec k (ptr A (i + 1))); try lia; reflexivity.
      * pose proof (ptr_mono A (i' + 1) i V ltac:(lia) ltac:(lia) ltac:(lia)). destruct (Z.leb_spec (ptr A i) k); [lia|]. cbn [andb]. apply G1; lia.
    + intros k Hk. rewrite G by lia. destruct (Z.ltb_spec k (ptr A (i + 1))); [lia|]. rewrite andb_false_r. apply G2. lia.
  - auto.
Qed.

Lemma lap_ok A : csr_valid A -> (forall i, 0 <= i < c_rows A -> has_diag A i) -> adj_to_laplacian A = Ok (with_val A (map (new_val A) (positions A))).
Proof.
  intros V Hd. pose proof (cv_rows V). destruct (lap_loop A (c_rows A) V ltac:(lia) Hd) as (data & E & Ll & G & _). unfold adj_to_laplacian. rewrite E. cbn [bind].
  unfold with_val. do 2 f_equal. apply (list_ext s0).
  - rewrite zlen_map, positions_length by exact V. exact Ll.
  - intros k Hk. rewrite (zn_map (0, 0)) by (rewrite positions_length by exact V; lia). pose proof (zn_positions_snd A k V ltac:(lia)) as Es.
    assert (Hin : In (zn (0, 0) (positions A) k) (positions A)) by (apply zn_In; rewrite positions_length by exact V; lia).
    destruct (zn (0, 0) (positions A) k) as [i k'] eqn:Ez. cbn [snd] in Es. subst k'. apply In_positions in Hin. apply G; tauto.
Qed.

Lemma lap_fails A : csr_valid A -> (exists i, 0 <= i < c_rows A /\ ~ has_diag A i) -> adj_to_laplacian A = Fail FAssert.
Proof.
  intros V Hex. assert (Hmin : exists i, 0 <= i < c_rows A /\ ~ has_diag A i /\ forall i', 0 <= i' < i -> has_diag A i').
  { destruct Hex as (i & Hi & N). revert N. pattern i. replace i with (Z.of_nat (Z.to_nat i)) in * by lia. generalize (Z.to_nat i) Hi. clear i Hi. intros n.
    induction n as [n IH] using lt_wf_ind. intros Hi N.
    assert (D : (forall i', 0 <= i' < Z.of_nat n -> has_diag A i') \/ exists m, (m < n)%nat /\ ~ has_diag A (Z.of_nat m)).
    { clear IH N. induction n as [|n IHn]; [left; lia|]. destruct (IHn ltac:(lia)) as [G|(m & Hm & G)]; [|right; exists m; split; [lia|exact G]].
      destruct (has_diag_dec A (Z.of_nat n) V ltac:(lia)) as [D|D]; [left|right; exists n; split; [lia|exact D]].
      intros i' Hi'. destruct (Z.eq_dec i' (Z.of_nat n)) as [->|]; [exact D|apply G; lia]. }
    destruct D as [G|(m & Hm & G)]; [exists (Z.of_nat n); auto|]. apply (IH m Hm); [lia|exact G]. }
  destruct Hmin as (i & Hi & N & G). destruct (lap_loop A i V ltac:(lia) G) as (data & E & Ll & _).
  unfold adj_to_laplacian. rewrite (for_split 0 i) by lia. rewrite E. cbn [bind]. unfold for_. rewrite zrange_cons by lia. cbn [foldM].
  rewrite (lap_row_fails A i data V Hi Ll N). reflexivity.
Qed.

(* ---------------------------------------------------------------- in terms of the stored entries *)

Lemma has_diag_stored A i : csr_valid A -> 0 <= i < c_rows A -> has_diag A i <-> stored A i i.
Proof.
  intros V Hi. split.
  - intros (k & Hk & E). exists (val A k). rewrite <- E at 2. now apply In_entries_pos.
  - intros (v & H). apply In_entries in H. destruct H as (k & _ & Hk & E & _). exists k. cbn in *. auto.
Qed.

Lemma stored_edges A i j : stored A i j <-> 0 < edges A i j.
Proof.
  unfold stored, edges. split.
  - intros (v & H). assert (G : In (i, j, v) (filter (at_pos i j) (entries A))) by (apply filter_In; split; [exact H|unfold at_pos; cbn; now rewrite !Z.eqb_refl]).
    destruct (filter (at_pos i j) (entries A)); [destruct G|]. rewrite zlen_cons. pose proof (zlen_nonneg l). lia.
  - intros H. destruct (filter (at_pos i j) (entries A)) as [|[[i' j'] v] l] eqn:E; [rewrite zlen_nil in H; lia|].
    assert (G : In (i', j', v) (filter (at_pos i j) (entries A))) by (rewrite E; left; reflexivity). apply filter_In in G. destruct G as (G & P).
    unfold at_pos in P. cbn in P. apply andb_true_iff in P. destruct P as (P1 & P2). apply Z.eqb_eq in P1, P2. subst. exists v. exact G.
Qed.

Lemma row_filter A i (p : entry S -> bool) : csr_valid A -> 0 <= i < c_rows A ->
  filter (fun e => (erow e =? i) && p e) (entries A) = map (fun k => (i, idx A k, val A k)) (filter (fun k => p (i, idx A k, val A k)) (zrange (ptr A i) (ptr A (i + 1)))).
Proof.
  intros V Hi. transitivity (filter p (filter (fun e => erow e =? i) (entries A))).
  - induction (entries A) as [|e l IH]; [reflexivity|]. cbn [filter]. destruct (erow e =? i); cbn [andb]; [|exact IH]. cbn [filter]. destruct (p e); [f_equal|]; exact IH.
  - rewrite filter_row_entries by assumption. unfold row_entries. now rewrite filter_map.
Qed.

Lemma off_neighbours A i : csr_valid A -> 0 <= i < c_rows A -> off A i (ptr A i) (ptr A (i + 1)) = neighbours A i.
Proof. intros V Hi. unfold off, neighbours. rewrite (row_filter A i (fun e => negb (ecol e =? i)) V Hi), zlen_map. reflexivity. Qed.

Lemma edges_row A i j : csr_valid A -> 0 <= i < c_rows A -> edges A i j = zlen (filter (fun k => idx A k =? j) (zrange (ptr A i) (ptr A (i + 1)))).
Proof. intros V Hi. unfold edges, at_pos. rewrite (row_filter A i (fun e => ecol e =? j) V Hi), zlen_map. reflexivity. Qed.

Lemma one_diag_unique A i k k' : csr_valid A -> 0 <= i < c_rows A -> edges A i i = 1 -> ptr A i <= k < ptr A (i + 1) -> ptr A i <= k' < ptr A (i + 1) ->
  idx A k = i -> idx A k' = i -> k = k'.
Proof.
  intros V Hi E Hk Hk' Ek Ek'. rewrite edges_row in E by assumption.
  assert (G : forall m, ptr A i <= m < ptr A (i + 1) -> idx A m = i -> In m (filter (fun k => idx A k =? i) (zrange (ptr A i) (ptr A (i + 1))))).
  { intros m Hm Em. apply filter_In. split; [now apply In_zrange|now apply Z.eqb_eq]. }
  apply G in Ek; [|exact Hk]. apply G in Ek'; [|exact Hk']. destruct (filter (fun k => idx A k =? i) (zrange (ptr A i) (ptr A (i + 1)))) as [|a [|b l]].
  - destruct Ek.
  - destruct Ek as [<-|[]], Ek' as [<-|[]]. reflexivity.
  - rewrite !zlen_cons in E. pose proof (zlen_nonneg l). lia.
Qed.

(** The values, whatever the arithmetic *)
Lemma lap_values A : csr_valid A -> one_diagonal A ->
  updates (adj_to_laplacian A) A (fun i j _ => if i =? j then of_int (neighbours A i) else sopp s1).
Proof.
  intros V O. assert (Hd : forall i, 0 <= i < c_rows A -> has_diag A i).
  { intros i Hi. apply has_diag_stored; auto. apply stored_edges. rewrite (O i Hi). lia. }
  eexists. split; [now apply lap_ok|]. split; [apply with_val_valid; [exact V|rewrite zlen_map; now apply positions_length]|]. split; [repeat split|].
  rewrite (entries_with_val A _ V), entries_positions. unfold map_values. rewrite map_map. apply map_ext_in. intros [i k] Hp. cbn [fst snd entry_at erow ecol evalue]. unfold entry_at. cbn [fst snd erow ecol evalue].
  apply In_positions in Hp. destruct Hp as (Hi & Hk). f_equal. unfold new_val. rewrite (Z.eqb_sym i). destruct (Z.eqb_spec (idx A k) i) as [E|E]; [|reflexivity].
  pose proof (ptr_bounds A i V ltac:(lia)) as B1. pose proof (cv_mono V i Hi) as M.
  destruct (last_diag_range A i (ptr A i) (ptr A (i + 1)) ltac:(lia)) as [(_ & N)|(R & E')]; [now apply N in E|].
  rewrite (one_diag_unique A i k (last_diag A i (ptr A i) (ptr A (i + 1))) V Hi (O i Hi) Hk R E E'), Z.eqb_refl. now rewrite off_neighbours.
Qed.

Lemma lap_refuses A : csr_valid A -> (adj_to_laplacian A = Fail FAssert <-> exists i, 0 <= i < c_rows A /\ ~ stored A i i).
Proof.
  intros V. split.
  - intros H. assert (D : forall n, 0 <= n <= c_rows A -> (forall i, 0 <= i < n -> has_diag A i) \/ exists i, 0 <= i < n /\ ~ has_diag A i).
    { intros n Hn. replace n with (Z.of_nat (Z.to_nat n)) in * by lia. induction (Z.to_nat n) as [|m IH]; [left; lia|].
      destruct (IH ltac:(lia)) as [G|(i & Hi & G)]; [|right; exists i; split; [lia|exact G]].
      destruct (has_diag_dec A (Z.of_nat m) V ltac:(lia)) as [D|D]; [left|right; exists (Z.of_nat m); split; [lia|exact D]].
      intros i Hi. destruct (Z.eq_dec i (Z.of_nat m)) as [->|]; [exact D|apply G; lia]. }
    pose proof (cv_rows V). destruct (D (c_rows A) ltac:(lia)) as [G|(i & Hi & G)].
    + rewrite (lap_ok A V G) in H. discriminate.
    + exists i. split; [exact Hi|]. now rewrite <- has_diag_stored.
  - intros (i & Hi & N). apply lap_fails; [exact V|]. exists i. split; [exact Hi|]. now rewrite has_diag_stored.
Qed.

End LapProofs.
