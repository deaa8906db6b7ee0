(** Facts about CSR storage and the loops over it; no arithmetic laws are used. *)

From Coq Require Import ZArith List Lia Bool Permutation.
From Verif Require Import Base Scalar Spec Dense Sparse.
Import ListNotations.
Open Scope Z_scope.

(** ** More list facts *)

Lemma foldM_flat_map2 {St X Y} (f : St -> Y -> res St) (h : X -> list Y) g l s :
  (forall s x, In x l -> g s x = foldM f (h x) s) -> foldM g l s = foldM f (flat_map h l) s.
Proof. intros H. rewrite foldM_flat_map. apply foldM_ext. exact H. Qed.

Lemma map_flat_map {X Y Z'} (f : Y -> Z') (h : X -> list Y) l :
  map f (flat_map h l) = flat_map (fun x => map f (h x)) l.
Proof. induction l; cbn; [reflexivity|]. now rewrite map_app, IHl. Qed.

Lemma flat_map_ext_in {X Y} (f g : X -> list Y) l :
  (forall x, In x l -> f x = g x) -> flat_map f l = flat_map g l.
Proof.
  induction l; intros H; cbn; [reflexivity|].
  rewrite H by (left; reflexivity). f_equal. apply IHl. intros; apply H; right; assumption.
Qed.

Lemma flat_map_nil {X Y} (f : X -> list Y) l : (forall x, In x l -> f x = []) -> flat_map f l = [].
Proof.
  induction l; intros H; cbn; [reflexivity|]. rewrite H by (left; reflexivity).
  apply IHl. intros; apply H; right; assumption.
Qed.

Lemma filter_flat_map {X Y} (p : Y -> bool) (h : X -> list Y) l :
  filter p (flat_map h l) = flat_map (fun x => filter p (h x)) l.
Proof. induction l; cbn; [reflexivity|]. now rewrite filter_app, IHl. Qed.

Lemma filter_map {X Y} (p : Y -> bool) (f : X -> Y) l :
  filter p (map f l) = map f (filter (fun x => p (f x)) l).
Proof. induction l; cbn; [reflexivity|]. destruct (p (f a)); cbn; now rewrite IHl. Qed.

Lemma filter_all {X} (p : X -> bool) l : (forall x, In x l -> p x = true) -> filter p l = l.
Proof.
  induction l; intros H; cbn; [reflexivity|]. rewrite H by (left; reflexivity).
  f_equal. apply IHl. intros; apply H; right; assumption.
Qed.

Lemma filter_none {X} (p : X -> bool) l : (forall x, In x l -> p x = false) -> filter p l = [].
Proof.
  induction l; intros H; cbn; [reflexivity|]. rewrite H by (left; reflexivity).
  apply IHl. intros; apply H; right; assumption.
Qed.

Lemma flat_map_single {X Y} (f : Z -> list Y) (g : X -> Y) lo hi i :
  lo <= i < hi -> (forall k, lo <= k < hi -> k <> i -> f k = []) ->
  flat_map f (zrange lo hi) = f i.
Proof.
  intros H Hn. rewrite (zrange_app lo i hi), (zrange_cons i hi) by lia.
  rewrite flat_map_app. cbn [flat_map]. rewrite !flat_map_nil.
  - cbn. now rewrite app_nil_r.
  - intros k Hk. apply In_zrange in Hk. apply Hn; lia.
  - intros k Hk. apply In_zrange in Hk. apply Hn; lia.
Qed.

(** Buckets of a list put one after the other are a permutation of the list. *)
Lemma Permutation_buckets {X} (key : X -> Z) n l :
  (forall x, In x l -> 0 <= key x < n) ->
  Permutation (flat_map (fun c => filter (fun x => key x =? c) l) (zrange 0 n)) l.
Proof.
  induction l as [|a l IH]; intros H.
  - rewrite flat_map_nil; [constructor|reflexivity].
  - assert (Ha : 0 <= key a < n) by (apply H; left; reflexivity).
    specialize (IH ltac:(intros; apply H; right; assumption)).
    rewrite (zrange_app 0 (key a) n), (zrange_cons (key a) n) in IH |- * by lia.
    rewrite flat_map_app in IH |- *. cbn [flat_map filter] in IH |- *. rewrite Z.eqb_refl.
    set (A := flat_map (fun c => filter (fun x => key x =? c) l) (zrange 0 (key a))) in IH.
    set (B := flat_map (fun c => filter (fun x => key x =? c) l) (zrange (key a + 1) n)) in IH.
    replace (flat_map _ (zrange 0 (key a))) with A.
    2:{ apply flat_map_ext_in. intros c Hc. apply In_zrange in Hc.
        destruct (Z.eqb_spec (key a) c); [lia|reflexivity]. }
    replace (flat_map _ (zrange (key a + 1) n)) with B.
    2:{ apply flat_map_ext_in. intros c Hc. apply In_zrange in Hc.
        destruct (Z.eqb_spec (key a) c); [lia|reflexivity]. }
    cbn [app]. rewrite <- Permutation_middle. constructor. exact IH.
Qed.

(** ** Positions *)

Section Csr.
Context {S : scalar}.
Notation T := (car S).
Notation csr := (csr S).
Implicit Types A B : csr.

(** All pairs (row, storage position) in storage order. *)
Definition positions (A : csr) : list (Z * Z) :=
  flat_map (fun i => map (fun k => (i, k)) (zrange (ptr A i) (ptr A (i + 1)))) (zrange 0 (c_rows A)).

Definition entry_at (A : csr) (p : Z * Z) : entry S := (fst p, idx A (snd p), val A (snd p)).

Lemma entries_positions A : entries A = map (entry_at A) (positions A).
Proof.
  unfold entries, positions, row_entries. rewrite map_flat_map.
  apply flat_map_ext_in. intros i _. rewrite map_map. reflexivity.
Qed.

Lemma ptr_mono A i j : csr_valid A -> 0 <= i -> i <= j -> j <= c_rows A -> ptr A i <= ptr A j.
Proof.
  intros V Hi Hij Hj. assert (E : exists n, j = i + Z.of_nat n) by (exists (Z.to_nat (j - i)); lia).
  destruct E as (n & ->). clear Hij. revert Hj. induction n; intros Hn.
  - rewrite Z.add_0_r. lia.
  - pose proof (cv_mono V (i + Z.of_nat n) ltac:(lia)).
    replace (i + Z.of_nat (Datatypes.S n)) with (i + Z.of_nat n + 1) by lia.
    specialize (IHn ltac:(lia)). lia.
Qed.

Lemma ptr_bounds A i : csr_valid A -> 0 <= i <= c_rows A -> 0 <= ptr A i <= nnz A.
Proof.
  intros V Hi. rewrite <- (cv_first V), <- (cv_last V).
  split; apply ptr_mono; auto; lia.
Qed.

Lemma get_ptr A i : csr_valid A -> 0 <= i <= c_rows A -> get (c_ptr A) i = Ok (ptr A i).
Proof. intros V Hi. apply get_ok. rewrite (cv_ptr_len V). lia. Qed.

Lemma get_idx A k : csr_valid A -> 0 <= k < nnz A -> get (c_idx A) k = Ok (idx A k).
Proof. intros V Hk. apply get_ok. rewrite (cv_len V). exact Hk. Qed.

Lemma get_val A k : 0 <= k < nnz A -> get (c_val A) k = Ok (val A k).
Proof. intros Hk. apply get_ok. exact Hk. Qed.

Lemma idx_bounds A k : csr_valid A -> 0 <= k < nnz A -> 0 <= idx A k < c_cols A.
Proof. intros V Hk. apply (cv_idx V). rewrite (cv_len V). exact Hk. Qed.

Lemma In_positions A i k :
  In (i, k) (positions A) <-> 0 <= i < c_rows A /\ ptr A i <= k < ptr A (i + 1).
Proof.
  unfold positions. rewrite in_flat_map. split.
  - intros (i' & Hi & Hk). apply In_zrange in Hi. apply in_map_iff in Hk.
    destruct Hk as (k' & E & Hk). apply In_zrange in Hk. injection E as <- <-. auto.
  - intros (Hi & Hk). exists i. split; [apply In_zrange; exact Hi|].
    apply in_map_iff. exists k. split; [reflexivity|]. apply In_zrange; exact Hk.
Qed.

Lemma position_bounds A i k : csr_valid A -> In (i, k) (positions A) -> 0 <= i < c_rows A /\ 0 <= k < nnz A.
Proof.
  intros V H. apply In_positions in H. split; [tauto|].
  pose proof (ptr_bounds A i V ltac:(lia)). pose proof (ptr_bounds A (i + 1) V ltac:(lia)). lia.
Qed.

(** Rows lo..hi-1 occupy a contiguous range of the storage. *)
Lemma positions_snd_range A n :
  csr_valid A -> 0 <= n <= c_rows A ->
  flat_map (fun i => zrange (ptr A i) (ptr A (i + 1))) (zrange 0 n) = zrange 0 (ptr A n).
Proof.
  intros V Hn. assert (E : exists m, n = Z.of_nat m) by (exists (Z.to_nat n); lia).
  destruct E as (m & ->). revert Hn. rename m into n. induction n; intros Hn.
  - cbn. rewrite (cv_first V). now rewrite zrange_empty by lia.
  - replace (Z.of_nat (Datatypes.S n)) with (Z.of_nat n + 1) in * by lia.
    rewrite (zrange_snoc 0) by lia. replace (Z.of_nat n + 1 - 1) with (Z.of_nat n) by lia.
    rewrite flat_map_app, IHn by lia. cbn [flat_map]. rewrite app_nil_r.
    symmetry. apply zrange_app.
    pose proof (ptr_bounds A (Z.of_nat n) V ltac:(lia)).
    pose proof (cv_mono V (Z.of_nat n) ltac:(lia)). lia.
Qed.

Lemma positions_snd A : csr_valid A -> map snd (positions A) = zrange 0 (nnz A).
Proof.
  intros V. unfold positions. rewrite map_flat_map.
  rewrite <- (cv_last V), <- (positions_snd_range A (c_rows A) V) by (pose proof (cv_rows V); lia).
  apply flat_map_ext_in. intros i _. rewrite map_map. cbn. apply map_id.
Qed.

Lemma positions_length A : csr_valid A -> zlen (positions A) = nnz A.
Proof.
  intros V. rewrite <- (zlen_map snd), positions_snd, zlen_zrange; auto; unfold nnz; pose proof (zlen_nonneg (c_val A)); lia.
Qed.

Lemma NoDup_positions A : csr_valid A -> NoDup (map snd (positions A)).
Proof. intros V. rewrite positions_snd by exact V. apply NoDup_zrange. Qed.

Lemma zn_positions_snd A k : csr_valid A -> 0 <= k < nnz A -> snd (zn (0, 0) (positions A) k) = k.
Proof.
  intros V Hk. rewrite <- (zn_map (0, 0) 0 snd) by (rewrite positions_length by exact V; exact Hk).
  rewrite positions_snd by exact V. rewrite zn_zrange by lia. lia.
Qed.

Lemma position_of A k : csr_valid A -> 0 <= k < nnz A ->
  exists i, 0 <= i < c_rows A /\ ptr A i <= k < ptr A (i + 1).
Proof.
  intros V Hk. exists (fst (zn (0, 0) (positions A) k)).
  apply In_positions. rewrite <- (zn_positions_snd A k V Hk) at 2.
  rewrite <- surjective_pairing. apply zn_In. rewrite positions_length; auto.
Qed.

(** The loop nest visits the positions in storage order. *)
Lemma for_entries_positions {St} A (s : St) body :
  csr_valid A ->
  for_entries (c_rows A) (c_ptr A) s body
  = foldM (fun s p => body (fst p) (snd p) s) (positions A) s.
Proof.
  intros V. unfold for_entries, positions, for_. apply foldM_flat_map2.
  intros s' i Hi. apply In_zrange in Hi. rewrite !get_ptr by (auto; lia). cbn.
  rewrite foldM_map. reflexivity.
Qed.

Lemma for_entries_entries {St} A (s : St) body g :
  csr_valid A ->
  (forall i k s, In (i, k) (positions A) -> body i k s = g s (entry_at A (i, k))) ->
  for_entries (c_rows A) (c_ptr A) s body = foldM g (entries A) s.
Proof.
  intros V H. rewrite for_entries_positions by exact V. rewrite entries_positions, foldM_map.
  apply foldM_ext. intros s' [i k] Hin. apply H, Hin.
Qed.

(** The loop over one row. *)
Lemma row_loop {St} A i (s : St) body g :
  csr_valid A -> 0 <= i < c_rows A ->
  (forall k s, In (i, k) (positions A) -> body k s = g s (entry_at A (i, k))) ->
  for_ (ptr A i) (ptr A (i + 1)) s body = foldM g (row_entries A i) s.
Proof.
  intros V Hi H. unfold for_, row_entries. rewrite foldM_map. apply foldM_ext.
  intros s' k Hk. apply In_zrange in Hk. apply H. apply In_positions. auto.
Qed.

Lemma entries_in_shape A : csr_valid A -> in_shape (c_rows A) (c_cols A) (entries A).
Proof.
  intros V. unfold in_shape. rewrite entries_positions, Forall_map, Forall_forall.
  intros [i k] H. cbn. apply position_bounds in H; auto. split; [tauto|].
  apply idx_bounds; tauto.
Qed.

Lemma entries_length A : csr_valid A -> zlen (entries A) = nnz A.
Proof. intros V. rewrite entries_positions, zlen_map. now apply positions_length. Qed.

Lemma In_entries A e :
  In e (entries A) <-> exists k, 0 <= erow e < c_rows A /\ ptr A (erow e) <= k < ptr A (erow e + 1)
                                 /\ ecol e = idx A k /\ evalue e = val A k.
Proof.
  rewrite entries_positions, in_map_iff. split.
  - intros ([i k] & <- & H). apply In_positions in H. exists k. cbn. tauto.
  - intros (k & Hi & Hk & Hc & Hv). exists (erow e, k). split.
    + unfold entry_at. cbn. rewrite <- Hc, <- Hv. destruct e as [[? ?] ?]; reflexivity.
    + apply In_positions. auto.
Qed.

Lemma In_entries_pos A i k :
  csr_valid A -> 0 <= i < c_rows A -> ptr A i <= k < ptr A (i + 1) -> In (i, idx A k, val A k) (entries A).
Proof. intros V Hi Hk. apply In_entries. exists k. cbn. tauto. Qed.

(** The entries of the matrix in row i are the entries of row i. *)
Lemma filter_row_entries A i :
  csr_valid A -> 0 <= i < c_rows A -> filter (fun e => erow e =? i) (entries A) = row_entries A i.
Proof.
  intros V Hi. unfold entries. rewrite filter_flat_map.
  rewrite (flat_map_single _ (fun x : entry S => x) 0 (c_rows A) i Hi).
  - apply filter_all. intros e He. unfold row_entries in He. apply in_map_iff in He.
    destruct He as (k & <- & _). cbn. apply Z.eqb_refl.
  - intros k Hk Hne. apply filter_none. intros e He. unfold row_entries in He. apply in_map_iff in He.
    destruct He as (k' & <- & _). cbn. destruct (Z.eqb_spec k i); [contradiction|reflexivity].
Qed.

(** ** Same structure, new values *)

Definition with_val (A : csr) (d : list T) : csr := CSR (c_rows A) (c_cols A) (c_ptr A) (c_idx A) d.

Lemma with_val_valid A d : csr_valid A -> zlen d = zlen (c_val A) -> csr_valid (with_val A d).
Proof.
  intros [] H. unfold nnz in *. constructor; unfold ptr, idx, nnz in *; cbn in *; auto; rewrite H; auto.
Qed.

Lemma with_val_positions A d : positions (with_val A d) = positions A.
Proof. reflexivity. Qed.

Lemma entries_with_val A (f : Z * Z -> T) :
  csr_valid A ->
  entries (with_val A (map f (positions A))) = map (fun p => (fst p, idx A (snd p), f p)) (positions A).
Proof.
  intros V. rewrite entries_positions, with_val_positions. apply map_ext_in.
  intros p Hp. unfold entry_at. cbn. f_equal. unfold val. cbn.
  destruct (In_zn (0, 0) _ _ Hp) as (k & Hk & E).
  assert (Hk' : snd p = k) by (rewrite <- E; apply zn_positions_snd; auto; rewrite <- positions_length; auto).
  rewrite Hk'. rewrite (zn_map (0, 0)) by exact Hk. now rewrite E.
Qed.

(** Loops that rewrite data_[j] at the position being visited. *)
Lemma upd_loop A (f : Z * Z -> T) (body : list T -> Z * Z -> res (list T)) :
  csr_valid A ->
  (forall p d, In p (positions A) -> zlen d = nnz A -> zn s0 d (snd p) = val A (snd p) ->
     body d p = Ok (upd d (Z.to_nat (snd p)) (f p))) ->
  foldM body (positions A) (c_val A) = Ok (map f (positions A)).
Proof.
  intros V Hb.
  enough (H : returns (foldM body (positions A) (c_val A)) (fun d => d = map f (positions A))).
  { apply returns_exists in H. destruct H as (d & -> & ->). reflexivity. }
  apply (returns_foldM (fun pre d => zlen d = nnz A /\
     forall k, 0 <= k < nnz A -> zn s0 d k = if k <? zlen pre then f (zn (0, 0) (positions A) k) else val A k)).
  - split; [reflexivity|]. intros k Hk. rewrite zlen_nil. destruct (Z.ltb_spec k 0); [lia|reflexivity].
  - intros pre p post d E (Hl & Hd).
    assert (Hlen : zlen (positions A) = zlen pre + 1 + zlen post) by (rewrite E, zlen_app, zlen_cons; lia).
    rewrite positions_length in Hlen by exact V.
    pose proof (zlen_nonneg pre). pose proof (zlen_nonneg post).
    assert (Hp : zn (0, 0) (positions A) (zlen pre) = p).
    { rewrite E, zn_app_r by lia. replace (zlen pre - zlen pre) with 0 by lia. reflexivity. }
    assert (Hs : snd p = zlen pre) by (rewrite <- Hp; apply zn_positions_snd; auto; lia).
    rewrite Hb.
    + cbn. rewrite zlen_upd. split; [exact Hl|]. intros k Hk.
      rewrite zn_upd by lia. rewrite zlen_app, zlen_cons, zlen_nil.
      rewrite Hs. destruct (Z.eqb_spec k (zlen pre)) as [->|Hne].
      * destruct (Z.ltb_spec (zlen pre) (zlen pre + (0 + 1))); [|lia]. now rewrite Hp.
      * rewrite Hd by exact Hk.
        destruct (Z.ltb_spec k (zlen pre)), (Z.ltb_spec k (zlen pre + (0 + 1))); try reflexivity; lia.
    + rewrite E. apply in_elt.
    + exact Hl.
    + rewrite Hs. rewrite Hd by lia. destruct (Z.ltb_spec (zlen pre) (zlen pre)); [lia|reflexivity].
  - intros d (Hl & Hd). apply (list_ext s0).
    + rewrite zlen_map, positions_length by exact V. exact Hl.
    + intros k Hk. rewrite Hd by lia. rewrite positions_length by exact V.
      destruct (Z.ltb_spec k (nnz A)); [|lia]. symmetry. apply zn_map. rewrite positions_length; auto; lia.
Qed.

Lemma upd_same {A : Type} (d : A) l n : upd l n (nth n l d) = l.
Proof. revert n; induction l; intros [|n]; cbn; auto. now rewrite IHl. Qed.

Lemma upd_zn_same {A : Type} (d : A) l k : upd l (Z.to_nat k) (zn d l k) = l.
Proof. apply upd_same. Qed.

(** The common form of the members that change values only: the new value is a
    function of row, column and old value. *)
Lemma sp_upd_data_spec A (h : Z -> Z -> T -> T) body :
  csr_valid A ->
  (forall i k d, 0 <= i < c_rows A -> 0 <= k < nnz A -> zlen d = nnz A -> zn s0 d k = val A k ->
     body i k d = Ok (upd d (Z.to_nat k) (h i (idx A k) (val A k)))) ->
  exists B, sp_upd_data A body = Ok B /\ csr_valid B /\
    c_rows B = c_rows A /\ c_cols B = c_cols A /\ c_ptr B = c_ptr A /\ c_idx B = c_idx A /\
    entries B = map (fun e => (erow e, ecol e, h (erow e) (ecol e) (evalue e))) (entries A).
Proof.
  intros V Hb. unfold sp_upd_data. rewrite for_entries_positions by exact V.
  rewrite (upd_loop A (fun p => h (fst p) (idx A (snd p)) (val A (snd p)))) by
    (auto; intros [i k] d Hp Hl Hd; apply position_bounds in Hp; auto; apply Hb; tauto).
  cbn. eexists; split; [reflexivity|].
  split; [apply (with_val_valid A); [exact V|rewrite zlen_map; now apply positions_length]|].
  do 4 (split; [reflexivity|]).
  etransitivity; [apply (entries_with_val A _ V)|].
  rewrite entries_positions, map_map. apply map_ext. intros [i k]. reflexivity.
Qed.

(** The general way to recognise a matrix as the CSR form of given rows. *)
Lemma entries_rows (B : csr) (rows : Z -> list (entry S)) :
  (forall i, 0 <= i < c_rows B -> row_entries B i = rows i) ->
  entries B = flat_map rows (zrange 0 (c_rows B)).
Proof.
  intros H. unfold entries. apply flat_map_ext_in. intros i Hi. apply H, In_zrange, Hi.
Qed.

End Csr.
