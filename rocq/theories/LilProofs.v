(** LilMatrix: assembly, ToSparse, ToDense, products. *)

From Coq Require Import ZArith List Lia Bool Permutation Sorting.Sorted.
From Verif Require Import Base Scalar Spec Dense Sparse LoopFacts SumFacts CsrFacts Rows Accum SparseProofs SparseMore DenseFacts DenseProofs CooSpec CooProofs CooMore Lil LilSpec.
Import ListNotations.
Open Scope Z_scope.

Lemma flat_map_range_perm {X} (f g : Z -> list X) x i n : 0 <= i < n ->
  g i = x :: f i -> (forall k, 0 <= k < n -> k <> i -> g k = f k) -> Permutation (flat_map g (zrange 0 n)) (x :: flat_map f (zrange 0 n)).
Proof.
  intros Hi Hg Hk. rewrite (zrange_app 0 i n) by lia. rewrite (zrange_cons i n) by lia. rewrite !flat_map_app. cbn [flat_map].
  rewrite Hg. rewrite (flat_map_ext_in g f (zrange 0 i)) by (intros a Ha; apply In_zrange in Ha; apply Hk; lia).
  rewrite (flat_map_ext_in g f (zrange (i + 1) n)) by (intros a Ha; apply In_zrange in Ha; apply Hk; lia).
  cbn. symmetry. apply Permutation_middle.
Qed.

Lemma zn_over {A} (d : A) l i : zlen l <= i -> zn d l i = d.
Proof. intros H. unfold zn, zlen in *. apply nth_overflow. lia. Qed.

Lemma Forall_zn_nil {A} (P : list A -> Prop) ls i : P [] -> Forall P ls -> P (zn [] ls i).
Proof.
  intros H0 H. destruct (Z_lt_dec i 0) as [N|N].
  - unfold zn. replace (Z.to_nat i) with 0%nat by lia. destruct H; cbn; assumption.
  - destruct (Z_lt_dec i (zlen ls)); [|rewrite zn_over by lia; exact H0]. rewrite Forall_forall in H. apply H. apply zn_In. lia.
Qed.

Lemma snoc_case {X} (l : list X) : l = [] \/ exists l' x, l = l' ++ [x].
Proof. destruct l as [|a l]; [now left|right]. exists (removelast (a :: l)), (last (a :: l) a). now apply app_removelast_last. Qed.

Lemma zlen_snoc {X} (l : list X) x : zlen (l ++ [x]) = zlen l + 1.
Proof. rewrite zlen_app. reflexivity. Qed.

Lemma zn_snoc {X} d (l : list X) x : zn d (l ++ [x]) (zlen l) = x.
Proof. rewrite zn_app_r by lia. now rewrite Z.sub_diag. Qed.

Lemma upd_snoc {X} (l : list X) x y : upd (l ++ [x]) (Z.to_nat (zlen l)) y = l ++ [y].
Proof.
  apply (list_ext x); [rewrite zlen_upd, !zlen_snoc; reflexivity|]. intros i Hi. rewrite zlen_upd, zlen_snoc in Hi. pose proof (zlen_nonneg l).
  rewrite zn_upd by (rewrite ?zlen_snoc; lia). destruct (Z.eqb_spec i (zlen l)) as [->|N]; [now rewrite zn_snoc|].
  rewrite !zn_app_l by lia. reflexivity.
Qed.

Lemma Permutation_filter' {X} (p : X -> bool) l1 l2 : Permutation l1 l2 -> Permutation (filter p l1) (filter p l2).
Proof.
  induction 1; cbn; [constructor| | |eapply perm_trans; eauto].
  - destruct (p x); [now constructor|assumption].
  - destruct (p x), (p y); try apply Permutation_refl. constructor.
Qed.

Lemma Permutation_flat_map' {X Y} (f g : X -> list Y) l : (forall x, Permutation (f x) (g x)) -> Permutation (flat_map f l) (flat_map g l).
Proof. intros H. induction l; cbn; [constructor|]. now apply Permutation_app. Qed.

Section LilProofs.
Context {S : scalar}.
Notation T := (car S).
Notation node := (Z * T)%type.
Implicit Types (M : lil S) (l : list (entry S)) (ls : list (list node)).

Definition lrow ls (i : Z) : list (entry S) := map (fun n => (i, fst n, snd n)) (zn [] ls i).

Lemma lil_entries_upto M n : zlen (l_lists M) <= n -> lil_entries M = flat_map (lrow (l_lists M)) (zrange 0 n).
Proof.
  intros H. pose proof (zlen_nonneg (l_lists M)). rewrite (zrange_app 0 (zlen (l_lists M)) n) by lia. rewrite flat_map_app.
  rewrite (flat_map_nil (lrow (l_lists M)) (zrange (zlen (l_lists M)) n)); [now rewrite app_nil_r|].
  intros i Hi. apply In_zrange in Hi. unfold lrow. rewrite zn_over by lia. reflexivity.
Qed.

(* ---------------------------------------------------------------- Add *)

Lemma zlen_grow ls n : zlen ls <= n -> zlen (grow_lists ls n) = n.
Proof. intros H. unfold grow_lists. rewrite zlen_app, zlen_repeat. pose proof (zlen_nonneg ls). lia. Qed.

Lemma zn_grow ls n i : zn [] (grow_lists ls n) i = zn [] ls i.
Proof.
  unfold grow_lists, zn. destruct (Nat.lt_ge_cases (Z.to_nat i) (length ls)) as [H|H].
  - now rewrite app_nth1.
  - rewrite app_nth2 by exact H. rewrite (nth_overflow ls) by exact H. rewrite nth_repeat. reflexivity.
Qed.

Definition lil_entry_ok M (e : entry S) : Prop := entry_fits (l_size M) e.

(** the state after Add *)
Definition grown M (i : Z) : list (list node) :=
  if l_set M then l_lists M else if zlen (l_lists M) <=? i then grow_lists (l_lists M) (i + 1) else l_lists M.

Definition lil_after M (e : entry S) : lil S :=
  Lil (l_rows M) (l_cols M) (l_set M) (upd (grown M (erow e)) (Z.to_nat (erow e)) ((ecol e, evalue e) :: zn [] (l_lists M) (erow e))).

Lemma zn_grown M i k : zn [] (grown M i) k = zn [] (l_lists M) k.
Proof. unfold grown. destruct (l_set M); [reflexivity|]. destruct (zlen (l_lists M) <=? i); [apply zn_grow|reflexivity]. Qed.

Lemma zlen_grown M i : zlen (grown M i) = if l_set M then zlen (l_lists M) else Z.max (zlen (l_lists M)) (i + 1).
Proof.
  unfold grown. destruct (l_set M); [reflexivity|]. destruct (Z.leb_spec (zlen (l_lists M)) i); [rewrite zlen_grow|]; lia.
Qed.

Definition lil_add_entry M (e : entry S) : res (lil S) := lil_add M (erow e) (ecol e) (evalue e).

Lemma lil_add_ok M e : lil_entry_ok M e -> (l_set M = true -> zlen (l_lists M) = l_rows M) -> lil_add_entry M e = Ok (lil_after M e).
Proof.
  intros (H1 & H2 & H3 & H4) Hl. unfold lil_add_entry, lil_add. rewrite H3.
  destruct (Z.leb_spec 0 (erow e)); [|lia]. destruct (Z.leb_spec 0 (ecol e)); [|lia]. cbn [assert_ bind].
  unfold lil_after, grown. unfold l_size in H4. destruct (l_set M) eqn:E.
  - destruct (Z.ltb_spec (erow e) (l_rows M)); [|lia]. destruct (Z.ltb_spec (ecol e) (l_cols M)); [|lia]. cbn [assert_ bind].
    rewrite (get_ok ([] : list node)) by (specialize (Hl eq_refl); lia). cbn [bind]. rewrite set_ok by (specialize (Hl eq_refl); lia). reflexivity.
  - cbn [bind]. destruct (Z.leb_spec (zlen (l_lists M)) (erow e)).
    + rewrite (get_ok ([] : list node)) by (rewrite zlen_grow; lia). cbn [bind]. rewrite set_ok by (rewrite zlen_grow; lia). cbn [bind]. now rewrite zn_grow.
    + rewrite (get_ok ([] : list node)) by lia. cbn [bind]. rewrite set_ok by lia. reflexivity.
Qed.

Lemma lil_add_inv M e M' : lil_add_entry M e = Ok M' -> lil_entry_ok M e.
Proof.
  unfold lil_add_entry, lil_add, lil_entry_ok, entry_fits, l_size. intros H.
  destruct (Z.leb_spec 0 (erow e)); cbn [assert_ bind] in H; [|discriminate]. destruct (Z.leb_spec 0 (ecol e)); cbn [assert_ bind] in H; [|discriminate].
  destruct (seqb (evalue e) (evalue e)); cbn [assert_ bind] in H; [|discriminate].
  split; [lia|]. split; [lia|]. split; [reflexivity|]. destruct (l_set M); [|exact I].
  destruct (Z.ltb_spec (erow e) (l_rows M)); cbn [assert_ bind] in H; [|discriminate]. destruct (Z.ltb_spec (ecol e) (l_cols M)); cbn [assert_ bind] in H; [|discriminate]. lia.
Qed.

Lemma lil_after_row M e k : lil_entry_ok M e -> (l_set M = true -> zlen (l_lists M) = l_rows M) -> 0 <= k ->
  zn [] (l_lists (lil_after M e)) k = if k =? erow e then (ecol e, evalue e) :: zn [] (l_lists M) (erow e) else zn [] (l_lists M) k.
Proof.
  intros (H1 & H2 & H3 & H4) Hl Hk. cbn.
  rewrite zn_upd; [now rewrite zn_grown| |exact Hk].
  rewrite zlen_grown; unfold l_size in H4; destruct (l_set M); [specialize (Hl eq_refl)|]; lia.
Qed.

Lemma zlen_lil_after M e : zlen (l_lists (lil_after M e)) = if l_set M then zlen (l_lists M) else Z.max (zlen (l_lists M)) (erow e + 1).
Proof. cbn. rewrite zlen_upd. apply zlen_grown. Qed.

Lemma lil_after_entries M e : lil_entry_ok M e -> (l_set M = true -> zlen (l_lists M) = l_rows M) ->
  Permutation (lil_entries (lil_after M e)) (lil_entries M ++ [e]).
Proof.
  intros He Hl. pose proof He as (H1 & H2 & H3 & H4).
  assert (Hn : zlen (l_lists M) <= zlen (l_lists (lil_after M e)) /\ erow e < zlen (l_lists (lil_after M e))).
  { rewrite zlen_lil_after. unfold l_size in H4. destruct (l_set M); [specialize (Hl eq_refl)|]; lia. }
  rewrite (lil_entries_upto M (zlen (l_lists (lil_after M e)))) by lia. unfold lil_entries.
  rewrite (flat_map_range_perm (lrow (l_lists M)) (lrow (l_lists (lil_after M e))) e (erow e)); [apply Permutation_cons_append|lia| |].
  - unfold lrow. rewrite lil_after_row by (auto; lia). rewrite Z.eqb_refl. cbn. destruct e as [[i j] v]. reflexivity.
  - intros k Hk N. unfold lrow. rewrite lil_after_row by (auto; lia). destruct (Z.eqb_spec k (erow e)); [contradiction|reflexivity].
Qed.

Lemma Forall_lists (P : node -> Prop) ls : Forall (Forall P) ls <-> forall i, 0 <= i < zlen ls -> Forall P (zn [] ls i).
Proof.
  split.
  - intros H i Hi. rewrite Forall_forall in H. apply H. apply zn_In. exact Hi.
  - intros H. apply Forall_forall. intros x Hx. destruct (In_zn ([] : list node) ls x Hx) as (i & Hi & <-). now apply H.
Qed.

Lemma Forall_row (P : node -> Prop) ls i : Forall (Forall P) ls -> Forall P (zn [] ls i).
Proof. intros H. apply Forall_zn_nil; [constructor|exact H]. Qed.

Lemma lil_after_wf M e : lil_wf M -> lil_entry_ok M e -> (l_set M = true -> zlen (l_lists M) = l_rows M) -> lil_wf (lil_after M e).
Proof.
  intros (W1 & W2) He Hl. pose proof He as (H1 & H2 & H3 & H4). split.
  - apply Forall_lists. intros i Hi. rewrite lil_after_row by (auto; lia). destruct (i =? erow e).
    + constructor; [cbn; auto|]. now apply Forall_row.
    + now apply Forall_row.
  - intros Es. cbn in Es. destruct (W2 Es) as (A & B & C & D). rewrite zlen_lil_after, Es. cbn [l_rows l_cols lil_after].
    split; [exact A|]. split; [exact B|]. split; [exact C|]. apply Forall_lists. intros i Hi.
    rewrite lil_after_row by (auto; lia). unfold l_size in H4. rewrite Es in H4. destruct (i =? erow e).
    + constructor; [cbn; tauto|]. now apply (Forall_row (fun n => fst n < l_cols M)).
    + now apply (Forall_row (fun n => fst n < l_cols M)).
Qed.

(** What a LilMatrix of the library looks like while it is assembled. *)
Definition lil_inv M : Prop := lil_wf M /\ (l_set M = true -> zlen (l_lists M) = l_rows M).

Lemma lil_after_inv M e : lil_inv M -> lil_entry_ok M e -> lil_inv (lil_after M e).
Proof.
  intros (W & Hl) He. split; [now apply lil_after_wf|]. intros Es. cbn in Es. rewrite zlen_lil_after, Es. now apply Hl.
Qed.

Lemma l_size_after M e : l_size (lil_after M e) = l_size M.
Proof. reflexivity. Qed.

Fixpoint lil_after_all M l : lil S := match l with [] => M | e :: l' => lil_after_all (lil_after M e) l' end.

Lemma lil_add_all_ok l : forall M, lil_inv M -> Forall (lil_entry_ok M) l -> foldM lil_add_entry l M = Ok (lil_after_all M l).
Proof.
  induction l as [|e l IH]; intros M HM H; [reflexivity|]. inversion_clear H as [|? ? He Hl]. cbn [foldM lil_after_all].
  rewrite lil_add_ok by (auto; apply HM). cbn [bind]. apply IH; [now apply lil_after_inv|exact Hl].
Qed.

Lemma lil_add_all_inv l : forall M M', lil_inv M -> foldM lil_add_entry l M = Ok M' -> Forall (lil_entry_ok M) l /\ M' = lil_after_all M l.
Proof.
  induction l as [|e l IH]; intros M M' HM H; cbn [foldM] in H.
  - injection H as <-. auto.
  - destruct (lil_add_entry M e) as [M1|] eqn:E; cbn [bind] in H; [|discriminate]. pose proof (lil_add_inv _ _ _ E) as He.
    rewrite lil_add_ok in E by (auto; apply HM). injection E as <-. apply IH in H; [|now apply lil_after_inv]. destruct H as (Hl & ->).
    split; [constructor; assumption|reflexivity].
Qed.

Lemma lil_after_all_spec l : forall M, lil_inv M -> Forall (lil_entry_ok M) l ->
  lil_inv (lil_after_all M l) /\ l_size (lil_after_all M l) = l_size M /\
  Permutation (lil_entries (lil_after_all M l)) (lil_entries M ++ l) /\
  (l_set M = false -> zlen (l_lists (lil_after_all M l)) = Z.max (zlen (l_lists M)) (bound erow l)).
Proof.
  induction l as [|e l IH]; intros M HM H.
  - cbn. rewrite app_nil_r. split; [exact HM|]. split; [reflexivity|]. split; [reflexivity|]. intros _. pose proof (zlen_nonneg (l_lists M)). unfold bound. cbn. lia.
  - inversion_clear H as [|? ? He Hl]. cbn [lil_after_all]. destruct (IH (lil_after M e)) as (A & B & C & D); [now apply lil_after_inv|exact Hl|].
    split; [exact A|]. split; [exact B|]. split.
    + rewrite C. change (e :: l) with ([e] ++ l). rewrite app_assoc. apply Permutation_app_tail. apply lil_after_entries; [exact He|apply HM].
    + intros Es. rewrite D by exact Es. rewrite zlen_lil_after, Es. unfold bound. cbn [fold_right]. lia.
Qed.

Lemma lil_add_dense_all M rows cols (V : dense S) : dense_ok V -> zlen rows = d_rows V -> zlen cols = d_cols V ->
  lil_add_dense M rows cols V = foldM lil_add_entry (dense_added rows cols (fun v => v) V) M.
Proof.
  intros HV H1 H2. unfold lil_add_dense. rewrite H1, H2, !Z.eqb_refl. cbn [assert_ bind]. unfold dense_added, for_.
  apply foldM_flat_map2. intros M1 j Hj. apply In_zrange in Hj. rewrite (get_ok 0) by lia. cbn [bind].
  rewrite foldM_map. apply foldM_ext. intros M2 i Hi. apply In_zrange in Hi. rewrite (get_ok 0) by lia. cbn [bind].
  rewrite d_get_ok by (auto; lia). reflexivity.
Qed.

(* ---------------------------------------------------------------- ToSparse *)

(** merging neighbours with equal column *)
Definition mstep (acc : list node) (n : node) : list node :=
  match rev acc with
  | (c, v) :: r => if fst n =? c then rev r ++ [(c, sadd v (snd n))] else acc ++ [n]
  | [] => [n]
  end.
Definition merge (row : list node) : list node := fold_left mstep row [].

Lemma mstep_snoc acc c v n : mstep (acc ++ [(c, v)]) n = if fst n =? c then acc ++ [(c, sadd v (snd n))] else acc ++ [(c, v)] ++ [n].
Proof. unfold mstep. rewrite rev_unit, rev_involutive. destruct (fst n =? c); [reflexivity|]. now rewrite <- app_assoc. Qed.

Lemma row_loop_ok cur row : forall acc ix d, zlen ix = cur -> zlen d = cur ->
  lil_row_loop cur row (ix ++ map fst acc) (d ++ map snd acc) =
  Ok (ix ++ map fst (fold_left mstep row acc), d ++ map snd (fold_left mstep row acc)).
Proof.
  induction row as [|n row IH]; intros acc ix d Hi Hd; [reflexivity|].
  unfold lil_row_loop. cbn [foldM fold_left].
  assert (E : (let (ix0, d0) := (ix ++ map fst acc, d ++ map snd acc) in
     same <- (if negb (zlen ix0 =? cur) then b <- get ix0 (zlen ix0 - 1) ;; Ok (fst n =? b) else Ok false) ;;
     if (same : bool) then b <- get d0 (zlen d0 - 1) ;; d0 <- set d0 (zlen d0 - 1) (sadd b (snd n)) ;; Ok (ix0, d0)
     else Ok (ix0 ++ [fst n], d0 ++ [snd n])) = Ok (ix ++ map fst (mstep acc n), d ++ map snd (mstep acc n))).
  { destruct (snoc_case acc) as [->|(acc' & [c v] & ->)].
    - cbn. rewrite !app_nil_r, Hi, Z.eqb_refl. reflexivity.
    - rewrite mstep_snoc. rewrite !map_app. cbn [map fst snd]. rewrite !app_assoc, !zlen_snoc.
      replace (zlen (ix ++ map fst acc') + 1 - 1) with (zlen (ix ++ map fst acc')) by lia.
      replace (zlen (d ++ map snd acc') + 1 - 1) with (zlen (d ++ map snd acc')) by lia.
      pose proof (zlen_nonneg (map fst acc')). pose proof (zlen_nonneg (map snd acc')).
      destruct (Z.eqb_spec (zlen (ix ++ map fst acc') + 1) cur) as [K|_]; [rewrite zlen_app in K; lia|]. cbn [negb].
      rewrite (get_ok 0) by (rewrite zlen_snoc, zlen_app; pose proof (zlen_nonneg ix); lia). cbn [bind]. rewrite zn_snoc.
      destruct (fst n =? c).
      + rewrite (get_ok s0) by (rewrite zlen_snoc, zlen_app; pose proof (zlen_nonneg d); lia). cbn [bind]. rewrite zn_snoc.
        rewrite set_ok by (rewrite zlen_snoc, zlen_app; pose proof (zlen_nonneg d); lia). cbn [bind]. rewrite upd_snoc.
        now rewrite !map_app, !app_assoc.
      + cbn [bind]. rewrite !map_app, !app_assoc. cbn. reflexivity. }
  rewrite E. cbn [bind]. apply IH; assumption.
Qed.

(** the rows produced *)
Definition mrow (srt : list_sorter) ls (i : Z) : list node := merge (srt (zn [] ls i)).

Definition ipk (rows k : Z) (f : Z -> list node) : list Z := map (fun j => if j <=? k then off f j else 0) (zrange 0 (rows + 1)).

Lemma ipk_0 rows f : 0 <= rows -> ipk rows 0 f = repeat 0 (Z.to_nat (rows + 1)).
Proof.
  intros H. rewrite <- map_const_zrange. apply map_ext_in. intros j Hj. apply In_zrange in Hj.
  destruct (Z.leb_spec j 0); [|reflexivity]. replace j with 0 by lia. apply off_0.
Qed.

Lemma ipk_succ rows k f : 0 <= k < rows -> upd (ipk rows k f) (Z.to_nat (k + 1)) (off f (k + 1)) = ipk rows (k + 1) f.
Proof.
  intros H. unfold ipk. apply (list_ext 0); [rewrite zlen_upd, !zlen_map; reflexivity|]. intros j Hj. rewrite zlen_upd, zlen_map_zrange in Hj by lia.
  rewrite zn_upd by (rewrite ?zlen_map_zrange; lia). rewrite !zn_map_zrange by lia.
  destruct (Z.eqb_spec j (k + 1)) as [->|N]; [now rewrite Z.leb_refl|].
  destruct (Z.leb_spec j k), (Z.leb_spec j (k + 1)); try lia; reflexivity.
Qed.

Lemma lil_loop srt ls rows : 0 <= rows -> zlen ls <= rows ->
  for_ 0 (zlen (map srt ls)) (repeat 0 (Z.to_nat (rows + 1)), [], []) (fun i (st : list Z * list Z * list T) =>
          let '(ip, ix, d) := st in
          cur <- get ip i ;;
          row <- get (map srt ls) i ;;
          '(ix, d) <- lil_row_loop cur row ix d ;;
          ip <- set ip (i + 1) (zlen d) ;;
          Ok (ip, ix, d))
  = Ok (ipk rows (zlen ls) (mrow srt ls), map fst (cat (mrow srt ls) (zlen ls)), map snd (cat (mrow srt ls) (zlen ls))).
Proof.
  intros Hr Hn. rewrite zlen_map. set (f := mrow srt ls).
  assert (G : forall n : nat, Z.of_nat n <= zlen ls ->
    for_ 0 (Z.of_nat n) (repeat 0 (Z.to_nat (rows + 1)), [], []) (fun i (st : list Z * list Z * list T) =>
          let '(ip, ix, d) := st in
          cur <- get ip i ;;
          row <- get (map srt ls) i ;;
          '(ix, d) <- lil_row_loop cur row ix d ;;
          ip <- set ip (i + 1) (zlen d) ;;
          Ok (ip, ix, d)) = Ok (ipk rows (Z.of_nat n) f, map fst (cat f (Z.of_nat n)), map snd (cat f (Z.of_nat n)))).
  { induction n as [|n IH]; intros Hk.
    - rewrite for_empty by lia. change (Z.of_nat 0) with 0. now rewrite ipk_0 by lia.
    - replace (Z.of_nat (Datatypes.S n)) with (Z.of_nat n + 1) by lia. rewrite (for_split 0 (Z.of_nat n)) by lia. rewrite IH by lia. cbn [bind].
      unfold for_. rewrite zrange_cons by lia. rewrite zrange_empty by lia. cbn [foldM bind].
      set (k := Z.of_nat n) in *.
      rewrite (get_ok 0) by (unfold ipk; rewrite zlen_map_zrange; lia). cbn [bind].
      rewrite (get_ok ([] : list node)) by (rewrite zlen_map; lia). cbn [bind].
      replace (zn 0 (ipk rows k f) k) with (off f k) by (unfold ipk; rewrite zn_map_zrange by lia; now rewrite Z.leb_refl).
      rewrite (zn_map ([] : list node)) by lia.
      pose proof (row_loop_ok (off f k) (srt (zn [] ls k)) [] (map fst (cat f k)) (map snd (cat f k))) as E.
      rewrite !zlen_map in E. specialize (E eq_refl eq_refl). cbn [map] in E. rewrite !app_nil_r in E. rewrite E. cbn [bind].
      fold (merge (srt (zn [] ls k))). change (merge (srt (zn [] ls k))) with (f k).
      rewrite <- !map_app, <- cat_succ by lia. rewrite zlen_map. change (zlen (cat f (k + 1))) with (off f (k + 1)).
      rewrite set_ok by (unfold ipk; rewrite zlen_map_zrange; lia). cbn [bind]. now rewrite ipk_succ by lia. }
  specialize (G (Z.to_nat (zlen ls))). pose proof (zlen_nonneg ls). rewrite Z2Nat.id in G by lia. apply G. lia.
Qed.

(* ---------------------------------------------------------------- merged rows *)

Lemma StronglySorted_snoc {X} (P : X -> X -> Prop) (l : list X) x :
  StronglySorted P (l ++ [x]) <-> StronglySorted P l /\ Forall (fun y => P y x) l.
Proof.
  induction l as [|a l IH]; cbn.
  - split; intros; [split; constructor|repeat constructor].
  - split.
    + intros H. inversion_clear H as [|? ? H1 H2]. apply IH in H1. destruct H1 as (H1 & H3). apply Forall_app in H2. destruct H2 as (H2 & H4).
      inversion_clear H4. split; constructor; auto.
    + intros (H1 & H2). inversion_clear H1 as [|? ? H3 H4]. inversion_clear H2. constructor; [now apply IH|]. apply Forall_app. auto.
Qed.

Lemma merge_snoc (row : list node) n : merge (row ++ [n]) = mstep (merge row) n.
Proof. unfold merge. now rewrite fold_left_app. Qed.

Lemma merge_cols (row : list node) c : In c (map fst (merge row)) <-> In c (map fst row).
Proof.
  induction row as [|n row IH] using rev_ind; [reflexivity|]. rewrite merge_snoc, map_app, in_app_iff. cbn [map In].
  rewrite <- IH. destruct (snoc_case (merge row)) as [->|(acc & [c' v] & ->)]; [cbn; tauto|]. rewrite mstep_snoc.
  destruct (Z.eqb_spec (fst n) c') as [E|N]; rewrite !map_app, ?in_app_iff; cbn [map In fst app]; [subst c'; tauto|tauto].
Qed.

Lemma merge_sorted (row : list node) : StronglySorted Z.le (map fst row) -> StronglySorted Z.lt (map fst (merge row)).
Proof.
  induction row as [|n row IH] using rev_ind; [constructor|]. rewrite merge_snoc, map_app. cbn [map]. intros H.
  apply StronglySorted_snoc in H. destruct H as (H1 & H2). specialize (IH H1).
  assert (H3 : Forall (fun y => y <= fst n) (map fst (merge row))).
  { apply Forall_forall. intros c Hc. apply (proj1 (merge_cols row c)) in Hc. rewrite Forall_forall in H2. now apply H2. }
  destruct (snoc_case (merge row)) as [E|(acc & [c v] & E)]; rewrite E in *; [cbn; repeat constructor|]. rewrite mstep_snoc.
  destruct (Z.eqb_spec (fst n) c) as [Ec|N].
  - rewrite map_app in IH |- *. exact IH.
  - rewrite app_assoc, map_app. cbn [map]. apply StronglySorted_snoc. split; [exact IH|].
    rewrite map_app in IH, H3 |- *. cbn [map fst] in *. apply StronglySorted_snoc in IH. destruct IH as (_ & H4).
    apply Forall_app in H3. destruct H3 as (_ & H3). inversion_clear H3. apply Forall_app. split; [|constructor; [lia|constructor]].
    eapply Forall_impl; [|exact H4]. cbn. intros; lia.
Qed.

Lemma merge_sum (R : ring_laws S) (row : list node) c :
  sum_list (map snd (filter (fun n => fst n =? c) (merge row))) = sum_list (map snd (filter (fun n => fst n =? c) row)).
Proof.
  induction row as [|n row IH] using rev_ind; [reflexivity|]. rewrite merge_snoc, filter_app, map_app, (sum_list_app R), <- IH. clear IH.
  destruct (snoc_case (merge row)) as [->|(acc & [c' v] & ->)].
  - cbn. now rewrite (sadd_0_l R).
  - rewrite mstep_snoc. destruct (Z.eqb_spec (fst n) c') as [E|N]; rewrite !filter_app, !map_app, !(sum_list_app R).
    + cbn [filter fst]. rewrite E. destruct (c' =? c); cbn; rewrite ?(sadd_0_r R); [|reflexivity]. now rewrite (sadd_assoc R).
    + now rewrite <- (sadd_assoc R).
Qed.

Lemma sum_at_row (R : ring_laws S) (row : list node) i k c :
  sum_list (map evalue (filter (at_pos k c) (row_to_entries i row))) =
  if i =? k then sum_list (map snd (filter (fun n => fst n =? c) row)) else s0.
Proof.
  unfold row_to_entries. rewrite filter_map, map_map. destruct (Z.eqb_spec i k) as [->|N].
  - f_equal. rewrite (filter_ext _ (fun n : node => fst n =? c)); [reflexivity|]. intros n. unfold at_pos. cbn. now rewrite Z.eqb_refl.
  - rewrite filter_none; [reflexivity|]. intros n _. unfold at_pos. cbn. destruct (Z.eqb_spec i k); [contradiction|reflexivity].
Qed.

(* ---------------------------------------------------------------- the CSR arrays *)

Definition lil_csr (rows cols n : Z) (f : Z -> list node) : csr S := CSR rows cols (ipk rows n f) (map fst (cat f n)) (map snd (cat f n)).

Lemma lil_csr_full rows cols f : lil_csr rows cols rows f = csr_of_rows rows cols f.
Proof.
  unfold lil_csr, csr_of_rows, ipk. f_equal. apply map_ext_in. intros j Hj. apply In_zrange in Hj. destruct (Z.leb_spec j rows); [reflexivity|lia].
Qed.

Lemma lil_csr_ptr rows cols n f i : 0 <= i <= rows -> ptr (lil_csr rows cols n f) i = if i <=? n then off f i else 0.
Proof. intros H. unfold ptr. cbn. unfold ipk. rewrite zn_map_zrange by lia. reflexivity. Qed.

Lemma lil_csr_row rows cols n f i : 0 <= n <= rows -> 0 <= i < rows ->
  row_entries (lil_csr rows cols n f) i = if i <? n then row_to_entries i (f i) else [].
Proof.
  intros Hn Hi. unfold row_entries. rewrite !lil_csr_ptr by lia. destruct (Z.ltb_spec i n).
  - destruct (Z.leb_spec i n); [|lia]. destruct (Z.leb_spec (i + 1) n); [|lia].
    rewrite <- (csr_of_rows_row n cols f i) by lia. unfold row_entries. rewrite !csr_of_rows_ptr by lia. reflexivity.
  - destruct (Z.leb_spec (i + 1) n); [lia|]. rewrite zrange_empty; [reflexivity|]. destruct (i <=? n); [apply off_nonneg|lia].
Qed.

Lemma lil_csr_entries rows cols n f : 0 <= n <= rows ->
  entries (lil_csr rows cols n f) = flat_map (fun i => row_to_entries i (f i)) (zrange 0 n).
Proof.
  intros Hn. unfold entries. cbn [c_rows lil_csr]. rewrite (zrange_app 0 n rows) by lia. rewrite flat_map_app.
  rewrite (flat_map_nil _ (zrange n rows)).
  - rewrite app_nil_r. apply flat_map_ext_in. intros i Hi. apply In_zrange in Hi. rewrite lil_csr_row by lia. destruct (Z.ltb_spec i n); [reflexivity|lia].
  - intros i Hi. apply In_zrange in Hi. rewrite lil_csr_row by lia. destruct (Z.ltb_spec i n); [lia|reflexivity].
Qed.

Lemma sp_make_lil rows cols n f : 0 <= n <= rows -> 0 <= cols -> (forall i p, 0 <= i < n -> In p (f i) -> 0 <= fst p < cols) ->
  sp_make (ipk rows n f) (map fst (cat f n)) (map snd (cat f n)) rows cols = Ok (lil_csr rows cols n f).
Proof.
  intros Hn Hc Hi. unfold sp_make. destruct (Z.leb_spec 0 rows) as [_|]; [|lia]. destruct (Z.leb_spec 0 cols) as [_|]; [|lia]. cbn [assert_ bind]. unfold ipk at 1. rewrite zlen_map_zrange by lia. rewrite !zlen_map, !Z.eqb_refl. cbn [assert_ bind].
  rewrite (get_ok 0) by (unfold ipk; rewrite zlen_map_zrange; lia). cbn [bind].
  replace (zn 0 (ipk rows n f) 0) with 0.
  2:{ unfold ipk. rewrite zn_map_zrange by lia. destruct (0 <=? n); [now rewrite off_0|reflexivity]. }
  cbn [assert_ bind Z.eqb].
  assert (Hin : forall x, In x (map fst (cat f n)) -> 0 <= x < cols).
  { intros x Hx. apply in_map_iff in Hx. destruct Hx as (p & <- & Hp). unfold cat in Hp. apply in_flat_map in Hp. destruct Hp as (i & H1 & H2).
    apply In_zrange in H1. eapply Hi; eauto. }
  destruct (Z.ltb_spec 0 (zlen (cat f n))) as [Hp|Hp]; [|reflexivity].
  assert (Hne : map fst (cat f n) <> []) by (intros H; apply map_eq_nil in H; rewrite H in Hp; unfold zlen in Hp; cbn in Hp; lia).
  destruct (max_elem_lt _ cols Hne) as (m & -> & Hm); [intros; apply Hin; assumption|].
  destruct (min_elem_ge _ 0 Hne) as (m' & -> & Hm'); [intros; apply Hin; assumption|].
  cbn [bind]. destruct (Z.ltb_spec m cols); [|lia]. cbn [assert_ bind].
  destruct (Z.leb_spec 0 m'); [|lia]. reflexivity.
Qed.

(* ---------------------------------------------------------------- sizes *)

Lemma find_cols_ge (ls : list (list node)) : forall c, c <= fold_left (fun c row => fold_left (fun c n => Z.max c (fst n)) row c) ls c /\
  forall row n, In row ls -> In n row -> fst n <= fold_left (fun c row => fold_left (fun c (n : node) => Z.max c (fst n)) row c) ls c.
Proof.
  assert (G : forall row c, c <= fold_left (fun c (n : node) => Z.max c (fst n)) row c /\ forall n, In n row -> fst n <= fold_left (fun c (n : node) => Z.max c (fst n)) row c).
  { induction row as [|a row IH]; intros c; cbn; [split; [lia|intros n []]|]. destruct (IH (Z.max c (fst a))) as (A & B). split; [lia|].
    intros n [->|H]; [lia|now apply B]. }
  induction ls as [|row ls IH]; intros c; cbn; [split; [lia|intros row n []]|].
  destruct (IH (fold_left (fun c n => Z.max c (fst n)) row c)) as (A & B). destruct (G row c) as (C & D). split; [lia|].
  intros row' n [->|H] Hn; [specialize (D n Hn); lia|eapply B; eauto].
Qed.

Lemma lil_shape M : lil_wf M -> let s := lil_find_size M in
  0 <= fst s /\ 0 <= snd s /\ zlen (l_lists M) <= fst s /\ forall i n, In n (zn [] (l_lists M) i) -> 0 <= fst n < snd s.
Proof.
  intros (W1 & W2). unfold lil_find_size. pose proof (zlen_nonneg (l_lists M)). destruct (l_set M) eqn:Es; cbn.
  - destruct (W2 eq_refl) as (A & B & C & D). split; [exact A|]. split; [exact B|]. split; [exact C|]. intros i n Hn.
    apply (Forall_row _ _ i) in W1. apply (Forall_row _ _ i) in D. rewrite Forall_forall in W1, D. specialize (W1 n Hn). specialize (D n Hn). cbn in D. lia.
  - destruct (find_cols_ge (l_lists M) 0) as (A & B). split; [lia|]. split; [lia|]. split; [lia|]. intros i n Hn.
    destruct (Z_lt_dec i (zlen (l_lists M))) as [L|L]; [|rewrite zn_over in Hn by lia; destruct Hn].
    assert (Hin : In (zn [] (l_lists M) i) (l_lists M)).
    { unfold zn, zlen in *. apply nth_In. destruct (l_lists M); [destruct (Z.to_nat i); destruct Hn|cbn in *; lia]. }
    specialize (B _ n Hin Hn). apply (Forall_row _ _ i) in W1. rewrite Forall_forall in W1. specialize (W1 n Hn). lia.
Qed.

Lemma In_lil_entries M i j v : lil_wf M -> (In (i, j, v) (lil_entries M) <-> 0 <= i < zlen (l_lists M) /\ In (j, v) (zn [] (l_lists M) i)).
Proof.
  intros _. unfold lil_entries. rewrite in_flat_map. split.
  - intros (k & Hk & H). apply In_zrange in Hk. apply in_map_iff in H. destruct H as ([c w] & E & H). cbn in E. injection E as -> -> ->. auto.
  - intros (Hi & H). exists i. split; [now apply In_zrange|]. apply in_map_iff. exists (j, v). auto.
Qed.

Lemma lil_entries_shape M : lil_wf M -> in_shape (fst (lil_find_size M)) (snd (lil_find_size M)) (lil_entries M).
Proof.
  intros W. destruct (lil_shape M W) as (A & B & C & D). apply Forall_forall. intros [[i j] v] H. apply (In_lil_entries M i j v W) in H. destruct H as (Hi & H).
  specialize (D i _ H). cbn in *. lia.
Qed.

(* ---------------------------------------------------------------- ToSparse *)

Variable srt : @list_sorter S.
Hypothesis Hsrt : list_sorts srt.

Lemma srt_perm M i : lil_wf M -> Permutation (zn [] (l_lists M) i) (srt (zn [] (l_lists M) i)).
Proof.
  intros (W & _). apply Hsrt. apply (Forall_row _ _ i) in W. eapply Forall_impl; [|exact W]. cbn. tauto.
Qed.

Lemma StronglySorted_impl {X} (P Q : X -> X -> Prop) (l : list X) : (forall a b, P a b -> Q a b) -> StronglySorted P l -> StronglySorted Q l.
Proof. intros H. induction 1 as [|a k H1 IH H2]; constructor; auto. eapply Forall_impl; [|exact H2]. auto. Qed.

Lemma StronglySorted_map {X Y} (f : X -> Y) (P : Y -> Y -> Prop) (l : list X) : StronglySorted (fun a b => P (f a) (f b)) l -> StronglySorted P (map f l).
Proof. induction 1 as [|a k H1 IH H2]; cbn; constructor; auto. apply Forall_map. exact H2. Qed.

Lemma srt_sorted M i : lil_wf M -> StronglySorted Z.le (map fst (srt (zn [] (l_lists M) i))).
Proof.
  intros (W & _). apply StronglySorted_map. apply StronglySorted_impl with (P := fun a b : node => node_lt b a = false).
  - intros a b H. unfold node_lt in H. apply orb_false_iff in H. destruct H as (H & _). apply Z.ltb_ge in H. exact H.
  - apply Hsrt. apply (Forall_row _ _ i) in W. eapply Forall_impl; [|exact W]. cbn. tauto.
Qed.

Lemma srt_nil : srt [] = [].
Proof. destruct (Hsrt []) as (P & _); [constructor|]. now apply Permutation_nil in P. Qed.

Definition lil_sorted M : lil S := Lil (l_rows M) (l_cols M) (l_set M) (map srt (l_lists M)).

Lemma lil_to_sparse_arrays M : lil_wf M ->
  lil_to_sparse srt M = Ok (lil_csr (fst (lil_find_size M)) (snd (lil_find_size M)) (zlen (l_lists M)) (mrow srt (l_lists M)), lil_sorted M).
Proof.
  intros W. destruct (lil_shape M W) as (A & B & C & D). unfold lil_to_sparse. destruct (lil_find_size M) as [rows cols]. cbn [fst snd] in *.
  destruct (l_lists M) as [|r0 ls0] eqn:El.
  - unfold sp_zero. rewrite !(proj2 (Z.leb_le _ _)) by lia. cbn [assert_ bind]. rewrite vec_ok by lia. cbn [bind]. f_equal. f_equal.
    + unfold lil_csr. change (zlen (@nil (list node))) with 0. rewrite ipk_0 by lia. reflexivity.
    + unfold lil_sorted. destruct M. cbn in *. now rewrite El.
  - cbv zeta. rewrite <- El in *. rewrite vec_ok by lia. cbn [bind]. rewrite set_ok by (rewrite zlen_repeat; lia). cbn [bind].
    replace (upd (repeat 0 (Z.to_nat (rows + 1))) (Z.to_nat 0) 0) with (repeat 0 (Z.to_nat (rows + 1))).
    2:{ replace (Z.to_nat (rows + 1)) with (Datatypes.S (Z.to_nat rows)) by lia. reflexivity. }
    rewrite lil_loop by lia. cbn [bind].
    rewrite sp_make_lil; [reflexivity|pose proof (zlen_nonneg (l_lists M)); lia|lia|]. intros i p Hi Hp.
    assert (K : In (fst p) (map fst (srt (zn [] (l_lists M) i)))) by (apply merge_cols; now apply in_map).
    apply in_map_iff in K. destruct K as (q & <- & Hq). apply (Permutation_in _ (Permutation_sym (srt_perm M i W))) in Hq. now apply (D i).
Qed.

Lemma map_srt_row M i : zn [] (map srt (l_lists M)) i = srt (zn [] (l_lists M) i).
Proof. unfold zn. rewrite <- srt_nil at 1. apply map_nth. Qed.

Lemma lil_sorted_spec M : lil_inv M -> lil_inv (lil_sorted M) /\ Permutation (lil_entries (lil_sorted M)) (lil_entries M) /\ l_size (lil_sorted M) = l_size M /\
  zlen (l_lists (lil_sorted M)) = zlen (l_lists M).
Proof.
  intros ((W1 & W2) & Hl). pose proof (conj W1 W2 : lil_wf M) as W.
  assert (El : zlen (l_lists (lil_sorted M)) = zlen (l_lists M)) by (cbn; apply zlen_map).
  split; [|split; [|split; [reflexivity|exact El]]].
  - assert (G : forall P : node -> Prop, Forall (Forall P) (l_lists M) -> Forall (Forall P) (map srt (l_lists M))).
    { intros P HP. apply Forall_lists. intros i Hi. rewrite map_srt_row. eapply Permutation_Forall; [apply srt_perm; exact W|]. now apply Forall_row. }
    split; [split|].
    + cbn. now apply G.
    + intros Es. cbn in Es. destruct (W2 Es) as (A & B & C & D). rewrite El. cbn. auto.
    + intros Es. rewrite El. now apply Hl.
  - unfold lil_entries. rewrite El. cbn [l_lists lil_sorted]. apply Permutation_flat_map'. intros i. rewrite map_srt_row. apply Permutation_map. symmetry. now apply srt_perm.
Qed.

Lemma lil_csr_mat (R : ring_laws S) M rows cols i j : lil_wf M -> zlen (l_lists M) <= rows ->
  csr_mat (lil_csr rows cols (zlen (l_lists M)) (mrow srt (l_lists M))) i j = mat_of (lil_entries M) i j.
Proof.
  intros W Hn. pose proof (zlen_nonneg (l_lists M)). unfold csr_mat. rewrite lil_csr_entries by lia. unfold lil_entries.
  rewrite !(mat_of_flat_map R). apply (sum_map_ext). intros k _. unfold mat_of. rewrite (sum_at_row R).
  change (map (fun n : Z * T => (k, fst n, snd n)) (zn [] (l_lists M) k)) with (row_to_entries k (zn [] (l_lists M) k)).
  rewrite (sum_at_row R). destruct (k =? i); [|reflexivity]. unfold mrow. rewrite (merge_sum R).
  apply (sum_map_perm R). apply Permutation_filter'. symmetry. now apply srt_perm.
Qed.

End LilProofs.
