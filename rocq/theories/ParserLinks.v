(** The statements of PropParser from the lemmas of the Parser files. *)

From Coq Require Import ZArith List Bool Lia String Ring Floats.SpecFloat.
From Verif Require Import Base Scalar Spec Dense Sparse Coo CooSpec Text Parser ParserSpec TextProofs ParserProofs ParserMore ParserGraph ParserBinary.
From Verif Require Import SumFacts LoopFacts CsrFacts Rows CooProofs CooMore HistoryProofs Double DoubleSpec DoubleProofs DoubleText DoubleMore.
Import ListNotations.
Open Scope Z_scope.

Section Links.
Context {S : scalar}.
Notation T := (car S).
Notation csr := (csr S).

Lemma filter_no_dup (l : list (entry S)) i j v : no_dup_coords l -> In (i, j, v) l -> filter (at_pos i j) l = [(i, j, v)].
Proof.
  unfold no_dup_coords. induction l as [|e l IH]; intros Hn Hi; [destruct Hi|]. cbn [map] in Hn. inversion_clear Hn as [|? ? Hx Hl]. cbn [filter].
  assert (Hout : forall k, In k l -> fst k <> fst e) by (intros k Hk E; apply Hx; rewrite <- E; apply in_map, Hk).
  destruct Hi as [->|Hi].
  - unfold at_pos at 1, erow, ecol. cbn [fst snd]. rewrite !Z.eqb_refl. cbn [andb]. f_equal.
    clear IH Hl Hx. induction l as [|k l IH]; [reflexivity|]. cbn [filter].
    assert (E : at_pos i j k = false).
    { unfold at_pos, erow, ecol. destruct (Z.eqb_spec (fst (fst k)) i), (Z.eqb_spec (snd (fst k)) j); try reflexivity. exfalso.
      apply (Hout k (or_introl eq_refl)). cbn [fst]. destruct (fst k) as [a b]. cbn [fst snd] in *. congruence. }
    rewrite E. apply IH. intros k' Hk'. apply Hout. right. exact Hk'.
  - assert (E : at_pos i j e = false).
    { unfold at_pos, erow, ecol. destruct (Z.eqb_spec (fst (fst e)) i), (Z.eqb_spec (snd (fst e)) j); try reflexivity. exfalso.
      apply (Hout _ Hi). cbn [fst]. destruct (fst e) as [a b]. cbn [fst snd] in *. congruence. }
    rewrite E. apply IH; assumption.
Qed.

Lemma assembles_same (A : csr) m : csr_valid A -> no_dup_coords (entries A) -> Forall (fun v => sadd s0 v = v) (c_val A) ->
  assembles m (c_rows A) (c_cols A) (entries A) -> exists B, m = Ok B /\ same_entries A B.
Proof.
  intros V Hn Hz (B & E & VB & H1 & H2 & H3 & H4). exists B. split; [exact E|]. unfold same_entries. refine (conj VB (conj H1 (conj H2 (conj H3 _)))).
  intros [[i j] v]. rewrite H4.
  assert (Hv : forall w, In (i, j, w) (entries A) -> fold_left sadd (map evalue (filter (at_pos i j) (entries A))) s0 = w).
  { intros w Hw. rewrite (filter_no_dup _ _ _ _ Hn Hw). cbn [map fold_left evalue snd]. rewrite Forall_forall in Hz. apply Hz. exact (entry_value A (i, j, w) V Hw). }
  split.
  - intros ((w & Hw) & ->). rewrite (Hv w Hw). exact Hw.
  - intros Hw. split; [exists v; exact Hw|]. symmetry. apply Hv, Hw.
Qed.

Lemma assembles_is (R : ring_laws S) m rows cols (l : list (entry S)) : assembles m rows cols l -> is_matrix m rows cols (mat_of l).
Proof. intros H. destruct (assembles_mat R m rows cols l H) as (A & H1 & H2 & H3 & H4 & _ & H5). exists A. auto. Qed.

Lemma bound_reached (f : entry S -> Z) l n : 0 < n -> (forall e, In e l -> f e < n) -> (exists e, In e l /\ f e = n - 1) -> Z.max 1 (bound f l) = n.
Proof.
  intros Hn Hl (e & He & Ee). pose proof (In_bound f l e He). assert (bound f l <= n); [|lia].
  clear -Hn Hl. induction l as [|a l IH]; [cbn; lia|]. unfold bound in *. cbn [fold_right]. specialize (IH (fun e He => Hl e (or_intror He))). specialize (Hl a (or_introl eq_refl)). lia.
Qed.

Lemma entries_bounds (A : csr) : csr_valid A -> reaches_end A ->
  Z.max 1 (bound erow (entries A)) = c_rows A /\ Z.max 1 (bound ecol (entries A)) = c_cols A.
Proof.
  intros V (H1 & H2). pose proof (entries_in_shape A V) as Hs. unfold in_shape in Hs. rewrite Forall_forall in Hs.
  split; apply bound_reached; auto; try (intros e He; specialize (Hs e He); lia).
  - destruct H1 as (e & He & _). specialize (Hs e He). lia.
  - destruct H2 as (e & He & _). specialize (Hs e He). lia.
Qed.

Context (C : codec S).

Lemma coo_kept (A : csr) : csr_valid A -> int_sized A -> no_dup_coords (entries A) -> reaches_end A ->
  Forall (survives C 6) (c_val A) -> Forall (fun v => seqb v v = true /\ sadd s0 v = v) (c_val A) ->
  exists f B, write_coo_list C A false = Ok f /\ read_coo_list C f false = Ok B /\ same_entries A B.
Proof.
  intros V Hz Hn He Hs Hv. destruct (coo_round_trip C A V Hz Hs) as (f & Ef & H); [eapply Forall_impl; [|exact Hv]; intros v [? ?]; assumption|].
  destruct (entries_bounds A V He) as (-> & ->) in H. destruct (assembles_same A _ V Hn ltac:(eapply Forall_impl; [|exact Hv]; intros v [? ?]; assumption) H) as (B & EB & HB).
  exists f, B. auto.
Qed.
Lemma mtx_kept (A : csr) : csr_valid A -> int_sized A -> no_dup_coords (entries A) ->
  Forall (survives C 16) (c_val A) -> Forall (fun v => seqb v v = true /\ sadd s0 v = v) (c_val A) ->
  exists f B, write_mtx C A = Ok f /\ read_mtx C f = Ok B /\ same_entries A B.
Proof.
  intros V Hz Hn Hs Hv. destruct (mtx_round_trip C A V Hz Hs) as (f & Ef & H); [eapply Forall_impl; [|exact Hv]; intros v [? ?]; assumption|].
  destruct (assembles_same A _ V Hn ltac:(eapply Forall_impl; [|exact Hv]; intros v [? ?]; assumption) H) as (B & EB & HB).
  exists f, B. auto.
Qed.

Lemma mtx_matrix (R : ring_laws S) (A : csr) : csr_valid A -> int_sized A -> Forall (survives C 16) (c_val A) -> Forall (fun v => seqb v v = true) (c_val A) ->
  exists f, write_mtx C A = Ok f /\ is_matrix (read_mtx C f) (c_rows A) (c_cols A) (csr_mat A).
Proof. intros V Hz Hs Hv. destruct (mtx_round_trip C A V Hz Hs Hv) as (f & Ef & H). exists f. split; [exact Ef|]. exact (assembles_is R _ _ _ _ H). Qed.

Lemma coo_matrix (R : ring_laws S) (A : csr) : csr_valid A -> int_sized A -> reaches_end A -> Forall (survives C 6) (c_val A) -> Forall (fun v => seqb v v = true) (c_val A) ->
  exists f, write_coo_list C A false = Ok f /\ is_matrix (read_coo_list C f false) (c_rows A) (c_cols A) (csr_mat A).
Proof.
  intros V Hz He Hs Hv. destruct (coo_round_trip C A V Hz Hs Hv) as (f & Ef & H). destruct (entries_bounds A V He) as (-> & ->) in H.
  exists f. split; [exact Ef|]. exact (assembles_is R _ _ _ _ H).
Qed.

(** Symmetric matrices through files of their upper triangle. *)
Lemma coo_sym_file (A : csr) : csr_valid A -> int_sized A -> Forall (survives C 6) (c_val A) ->
  exists f, write_coo_list C A true = Ok f /\ file_of (triple_text C) (filter (upper true) (entries A)) f.
Proof.
  intros V Hz Hs. eexists. split; [apply write_coo_all, V|]. apply file_lines0. intros e He. apply filter_In in He. destruct He as (He & _).
  apply (triple_line_text C A 6 e V Hz He). rewrite Forall_forall in Hs. apply Hs, entry_value; assumption.
Qed.

Lemma mirror_ends (l : list (entry S)) n : 0 < n -> (forall e, In e l -> erow e <= ecol e < n) -> (exists e, In e l /\ ecol e = n - 1) ->
  Z.max 1 (bound erow (mirror l)) = n /\ Z.max 1 (bound ecol (mirror l)) = n.
Proof.
  intros Hn Hl (e & He & Ee).
  assert (Hin : forall k, In k (mirror l) -> erow k < n /\ ecol k < n).
  { intros k Hk. unfold mirror in Hk. apply in_flat_map in Hk. destruct Hk as (a & Ha & Hk). specialize (Hl a Ha).
    destruct (erow a =? ecol a); cbn in Hk; destruct Hk as [<-|Hk]; try lia; destruct Hk as [<-|[]]; unfold erow, ecol in *; cbn [fst snd]; lia. }
  split; apply bound_reached; auto; try (intros k Hk; specialize (Hin k Hk); lia).
  - destruct (Z.eq_dec (erow e) (ecol e)) as [E|E].
    + exists e. split; [|lia]. unfold mirror. apply in_flat_map. exists e. split; [exact He|]. apply Z.eqb_eq in E. rewrite E. left. reflexivity.
    + exists (ecol e, erow e, evalue e). split; [|unfold erow; cbn [fst snd]; exact Ee]. unfold mirror. apply in_flat_map. exists e. split; [exact He|]. apply Z.eqb_neq in E. rewrite E. right. left. reflexivity.
  - exists e. split; [|exact Ee]. unfold mirror. apply in_flat_map. exists e. split; [exact He|]. destruct (erow e =? ecol e); left; reflexivity.
Qed.

Lemma coo_sym_matrix (R : ring_laws S) (A : csr) : csr_valid A -> int_sized A -> c_rows A = c_cols A -> (forall i j, csr_mat A i j = csr_mat A j i) ->
  (exists e, In e (entries A) /\ erow e <= ecol e /\ ecol e = c_cols A - 1) ->
  Forall (survives C 6) (c_val A) -> Forall (fun v => seqb v v = true) (c_val A) ->
  exists f, write_coo_list C A true = Ok f /\ is_matrix (read_coo_list C f true) (c_rows A) (c_cols A) (csr_mat A).
Proof.
  intros V Hz Hsq Hsym (e & He & Hle & Ee) Hs Hv. destruct (coo_sym_file A V Hz Hs) as (f & Ef & Hf). exists f. split; [exact Ef|].
  pose proof (entries_addable A V Hv) as Ha. assert (Ha' : addable (filter (upper true) (entries A))).
  { unfold addable in *. rewrite Forall_forall in *. intros k Hk. apply filter_In in Hk. apply Ha, Hk. }
  pose proof (read_coo_any C _ f true Hf Ha') as H. cbn [maybe_mirror] in H.
  pose proof (entries_in_shape A V) as Hsh. unfold in_shape in Hsh. rewrite Forall_forall in Hsh.
  assert (Hup : forall k, In k (filter (upper true) (entries A)) -> erow k <= ecol k < c_cols A).
  { intros k Hk. apply filter_In in Hk. destruct Hk as (Hk & Hu). unfold upper in Hu. cbn [negb orb] in Hu. specialize (Hsh k Hk). lia. }
  destruct (mirror_ends (filter (upper true) (entries A)) (c_cols A)) as (B1 & B2).
  - specialize (Hsh e He). lia.
  - exact Hup.
  - exists e. split; [|exact Ee]. apply filter_In. split; [exact He|]. unfold upper. cbn [negb orb]. lia.
  - rewrite B1, B2 in H. rewrite Hsq. destruct (assembles_is R _ _ _ _ H) as (B & H1 & H2 & H3 & H4 & H5). exists B. refine (conj H1 (conj H2 (conj H3 (conj H4 _)))).
    intros i j. rewrite H5. rewrite (mat_of_mirror R) by (rewrite Forall_forall; intros k Hk; specialize (Hup k Hk); lia). rewrite !(mat_of_upper R).
    unfold csr_mat in Hsym. destruct (Z.leb_spec i j); [reflexivity|]. destruct (Z.leb_spec j i); [|lia]. apply Hsym.
Qed.

(* ---------------------------------------------------------------- any file *)

(** What operator+= of a Coo list does with entries of unknown quality. *)
Definition addableb (e : entry S) : bool := (0 <=? erow e) && (0 <=? ecol e) && seqb (evalue e) (evalue e).
Lemma coo_all_or_throw (l : list (entry S)) : forall M, o_set M = false ->
  foldM coo_add_entry l M = if forallb addableb l then Ok (coo_app M l) else Fail FAssert.
Proof.
  induction l as [|e l IH]; intros M HM; [cbn; unfold coo_app; rewrite app_nil_r; destruct M; reflexivity|]. cbn [foldM forallb]. unfold coo_add_entry at 1, coo_add. rewrite HM.
  unfold addableb at 1. destruct (0 <=? erow e); [|reflexivity]. cbn [assert_ bind andb]. destruct (0 <=? ecol e); [|reflexivity]. cbn [assert_ bind andb].
  destruct (seqb (evalue e) (evalue e)); [|reflexivity]. cbn [assert_ bind andb]. rewrite IH by reflexivity.
  destruct (forallb addableb l); [|reflexivity]. f_equal. unfold coo_app. cbn [o_rows o_cols o_set o_entries]. rewrite HM, <- app_assoc. destruct e as [[i j] v]. reflexivity.
Qed.

Lemma addable_b (l : list (entry S)) : forallb addableb l = true <-> addable l.
Proof.
  unfold addable. rewrite forallb_forall, Forall_forall. unfold addableb. split; intros H e He; specialize (H e He); rewrite ?andb_true_iff, ?Z.leb_le in *; tauto.
Qed.

Lemma coo_anything file sym : takes (tc_scan C) ->
  let es := records (extract3 scan_int scan_int (tc_scan C)) file in
  (addable es /\ assembles (read_coo_list C file sym) (Z.max 1 (bound erow (maybe_mirror sym es))) (Z.max 1 (bound ecol (maybe_mirror sym es))) (maybe_mirror sym es)) \/
  (~ addable es /\ read_coo_list C file sym = Fail FAssert).
Proof.
  intros Ht es. unfold read_coo_list. rewrite while_records by (apply extract3_consumes, Ht). fold es.
  assert (E : foldM (fun M p => let '(i, j, v) := p in add_maybe_sym sym i j v M) es coo_new = foldM coo_add_entry (maybe_mirror sym es) coo_new).
  { rewrite <- add_sym_all. apply foldM_ext. intros M [[i j] v]. reflexivity. }
  rewrite E. destruct (forallb addableb es) eqn:Ea.
  - apply addable_b in Ea. left. split; [exact Ea|]. apply assemble_undeclared, mirror_addable, Ea.
  - right. split; [rewrite <- addable_b; congruence|]. rewrite coo_all_or_throw by reflexivity.
    replace (forallb addableb (maybe_mirror sym es)) with false; [reflexivity|]. symmetry. destruct sym; [|exact Ea]. cbn [maybe_mirror].
    apply not_true_iff_false. rewrite addable_b. intros H. apply not_true_iff_false in Ea. apply Ea, addable_b.
    unfold addable in *. rewrite Forall_forall in *. intros e He. apply H. unfold mirror. apply in_flat_map. exists e. split; [exact He|]. destruct (erow e =? ecol e); left; reflexivity.
Qed.

Lemma adj_anything file sym : seqb (s1 : T) s1 = true ->
  let es := ones (S := S) (records (extract2 scan_int scan_int) file) in
  (addable es /\ assembles (S := S) (read_adj_list file sym) (Z.max 1 (bound erow (maybe_mirror sym es))) (Z.max 1 (bound ecol (maybe_mirror sym es))) (maybe_mirror sym es)) \/
  (~ addable es /\ read_adj_list (S := S) file sym = Fail FAssert).
Proof.
  intros H1 es. unfold read_adj_list. rewrite while_records by apply extract2_consumes.
  assert (E : foldM (fun M (p : Z * Z) => let (i, j) := p in add_maybe_sym sym i j s1 M) (records (extract2 scan_int scan_int) file) coo_new = foldM coo_add_entry (maybe_mirror sym es) coo_new).
  { rewrite <- add_sym_all. unfold es, ones. rewrite foldM_map. apply foldM_ext. intros M [i j]. reflexivity. }
  rewrite E. destruct (forallb addableb es) eqn:Ea.
  - apply addable_b in Ea. left. split; [exact Ea|]. apply assemble_undeclared, mirror_addable, Ea.
  - right. split; [rewrite <- addable_b; congruence|]. rewrite coo_all_or_throw by reflexivity.
    replace (forallb addableb (maybe_mirror sym es)) with false; [reflexivity|]. symmetry. destruct sym; [|exact Ea]. cbn [maybe_mirror].
    apply not_true_iff_false. rewrite addable_b. intros H. apply not_true_iff_false in Ea. apply Ea, addable_b.
    unfold addable in *. rewrite Forall_forall in *. intros e He. apply H. unfold mirror. apply in_flat_map. exists e. split; [exact He|]. destruct (erow e =? ecol e); left; reflexivity.
Qed.

Lemma text_anything file : takes (tc_scan C) -> read_text C file = Ok (records (extract_ok (tc_scan C)) file).
Proof.
  intros Ht. unfold read_text. rewrite while_records by (apply extract_ok_consumes, Ht). rewrite foldM_push. reflexivity.
Qed.

(** A Matrix Market reader that returns returns a valid matrix. *)
Lemma mtx_body_valid M0 (l : list (entry S)) A : 0 <= o_rows M0 -> 0 <= o_cols M0 -> o_set M0 = true -> o_entries M0 = [] ->
  (M <- foldM coo_add_entry l M0 ;; coo_to_sparse M) = Ok A -> csr_valid A /\ c_rows A = o_rows M0 /\ c_cols A = o_cols M0.
Proof.
  intros H1 H2 H3 H4 E. destruct (foldM coo_add_entry l M0) as [M|] eqn:EM; [|discriminate]. cbn [bind] in E.
  apply coo_add_all_inv in EM. destruct EM as (Hl & ->). destruct M0 as [r c st es]. cbn in *. subst st es.
  destruct (coo_to_sparse_exact (coo_app (Coo r c true []) l)) as (B & EB & V & Er & Ec & _).
  - unfold coo_ok. cbn. refine (conj H1 (conj H2 _)). unfold in_shape. eapply Forall_impl; [|exact Hl]. intros e (G1 & G2 & _ & G3). specialize (G3 eq_refl). cbn in G3. lia.
  - rewrite E in EB. injection EB as <-. auto.
Qed.

Lemma mtx_start_inv line M : mtx_start (S := S) line = Ok M -> 0 <= o_rows M /\ 0 <= o_cols M /\ o_set M = true /\ o_entries M = [].
Proof.
  unfold mtx_start. destruct (extract scan_int (IS line true)) as [r s]. destruct (extract scan_int s) as [c s']. destruct (extract scan_int s') as [n s''].
  destruct r as [r|]; [|discriminate]. destruct c as [c|]; [|discriminate]. destruct n as [n|]; [|discriminate]. cbn [uninit bind]. unfold coo_new_size.
  destruct (Z.leb_spec 0 r); [|discriminate]. destruct (Z.leb_spec 0 c); [|discriminate]. cbn [assert_ bind]. destruct (n <? 0); [discriminate|].
  intros E. injection E as <-. cbn. auto.
Qed.

Lemma mtx_valid file A : takes (tc_scan C) -> read_mtx C file = Ok A -> csr_valid A.
Proof.
  intros Ht. unfold read_mtx. destruct (mtx_header _ _ false) as [[[line s] sym]|]; [|discriminate]. cbn [bind].
  destruct (mtx_start line) as [M|] eqn:EM; [|discriminate]. cbn [bind]. apply mtx_start_inv in EM. destruct EM as (H1 & H2 & H3 & H4).
  rewrite while_records_from by (try (apply extract3_consumes, Ht); unfold fuel_of; lia). set (rs := records_from _ _ s).
  assert (E : foldM (fun M (p : Z * Z * T) => let '(i, j, v) := p in add_maybe_sym sym (i - 1) (j - 1) v M) rs M = foldM coo_add_entry (maybe_mirror sym (from_one rs)) M).
  { rewrite <- add_sym_all. unfold from_one. rewrite foldM_map. apply foldM_ext. intros M' [[i j] v]. reflexivity. }
  rewrite E. intros Q. apply (mtx_body_valid M _ A H1 H2 H3 H4 Q).
Qed.
Lemma mtx_list_valid file A : read_mtx_list (S := S) file = Ok A -> csr_valid A.
Proof.
  unfold read_mtx_list. destruct (mtx_header _ _ false) as [[[line s] sym]|]; [|discriminate]. cbn [bind].
  destruct (mtx_start line) as [M|] eqn:EM; [|discriminate]. cbn [bind]. apply mtx_start_inv in EM. destruct EM as (H1 & H2 & H3 & H4).
  rewrite while_records_from by (try apply extract2_consumes; unfold fuel_of; lia). set (rs := records_from _ _ s).
  assert (E : foldM (fun M (p : Z * Z) => let (i, j) := p in add_maybe_sym sym (i - 1) (j - 1) s1 M) rs M = foldM coo_add_entry (maybe_mirror sym (from_one (ones rs))) M).
  { rewrite <- add_sym_all. unfold from_one, ones. rewrite map_map, foldM_map. apply foldM_ext. intros M' [i j]. reflexivity. }
  rewrite E. intros Q. apply (mtx_body_valid M _ A H1 H2 H3 H4 Q).
Qed.

Lemma table_anything file : let rows := table_lines file in
  (List.concat rows = [] /\ read_table (S := S) file = Fail FUB) \/
  ((exists c, In c (List.concat rows) /\ c < 0) /\ read_table (S := S) file = Fail FAssert) \/
  exists A : csr, read_table file = Ok A /\ csr_valid A /\ c_rows A = zlen rows /\ c_cols A = col_bound (List.concat rows) /\ entries A = table_entries rows.
Proof.
  cbv zeta. rewrite read_table_records. fold (table_lines file). set (rows := table_lines file). destruct (List.concat rows) as [|a l] eqn:E.
  - left. split; [reflexivity|]. unfold table_result. rewrite E. reflexivity.
  - right. destruct (forallb (Z.leb 0) (a :: l)) eqn:Eb.
    + right. rewrite <- E. apply table_result_ok; [congruence|]. rewrite E. rewrite forallb_forall in Eb. intros c Hc. specialize (Eb c Hc). lia.
    + left. apply not_true_iff_false in Eb. rewrite forallb_forall in Eb.
      assert (Hex : exists c, In c (a :: l) /\ c < 0).
      { destruct (Exists_dec (fun c => c < 0) (a :: l) (fun c => Z_lt_dec c 0)) as [H|H]; [apply Exists_exists, H|]. exfalso. apply Eb. intros c Hc.
        destruct (Z.leb_spec 0 c); [reflexivity|]. exfalso. apply H, Exists_exists. exists c. auto. }
      split; [exact Hex|]. destruct Hex as (c & Hc & Hn). apply (table_result_negative rows c); [rewrite E; exact Hc|exact Hn].
Qed.

(** The pattern of an adjacency file. *)
Lemma adj_pattern (A : csr) : csr_valid A -> int_sized A -> seqb (s1 : T) s1 = true -> reaches_end A ->
  exists f B, write_adj_list A false = Ok f /\ read_adj_list (S := S) f false = Ok B /\ csr_valid B /\ c_rows B = c_rows A /\ c_cols B = c_cols A /\
    no_dup_coords (entries B) /\ forall i j, stored_at B i j <-> stored_at A i j.
Proof.
  intros V Hz H1 He. destruct (adj_round_trip A V Hz H1) as (f & Ef & H). destruct (entries_bounds A V He) as (-> & ->) in H.
  destruct H as (B & EB & VB & Hr & Hc & Hn & Hi). exists f, B. refine (conj Ef (conj EB (conj VB (conj Hr (conj Hc (conj Hn _)))))).
  intros i j. unfold stored_at. split.
  - intros (v & Hv). apply Hi in Hv. destruct Hv as ((w & Hw) & _). unfold ones in Hw. rewrite map_map in Hw. apply in_map_iff in Hw. destruct Hw as ([[i' j'] v'] & E & Hw).
    cbn [fst snd] in E. injection E as <- <- _. exists v'. exact Hw.
  - intros (v & Hv). eexists. apply Hi. split; [|reflexivity]. exists s1. unfold ones. rewrite map_map. apply in_map_iff. exists (i, j, v). split; [reflexivity|exact Hv].
Qed.

(* ---------------------------------------------------------------- graphs *)

Lemma copies_nonneg (P : sum_order_laws S) (O : order_laws S) n (a : T) : sadd s0 s0 = (s0 : T) -> sle s0 a -> sle s0 (copies n a).
Proof.
  intros Hz Ha. unfold copies. induction n as [|n IH]; cbn [repeat sum_list fold_right]; [apply (slt_irrefl _ O)|].
  pose proof (sle_add _ P _ _ _ _ Ha IH) as H. rewrite Hz in H. exact H.
Qed.

Lemma graph_laplacian (R : ring_laws S) file : seqb (s1 : T) s1 = true -> seqb (sopp s1 : T) (sopp s1) = true ->
  let es := edges (records (extract2 scan_int scan_int) file) in
  let n := Z.max 1 (col_bound (map snd es)) in
  (Forall (fun p => 0 <= fst p) es /\
   is_matrix (S := S) (read_graph_list file) n n (fun i j => if i =? j then copies (degree es i) s1 else sopp (copies (multiplicity es i j) s1))) \/
  (~ Forall (fun p => 0 <= fst p) es /\ read_graph_list (S := S) file = Fail FAssert).
Proof.
  intros H1 H2 es n. pose proof (graph_any (S := S) file H1 H2) as H. cbv zeta in H. fold es in H. fold n in H.
  assert (Hi : forallb (fun p : Z * Z => 0 <=? fst p) es = true <-> Forall (fun p => 0 <= fst p) es).
  { rewrite forallb_forall, Forall_forall. split; intros Hx p Hp; specialize (Hx p Hp); lia. }
  destruct (forallb _ es) eqn:E.
  - left. split; [apply Hi; reflexivity|]. destruct (assembles_is R _ _ _ _ H) as (B & B1 & B2 & B3 & B4 & B5). exists B. refine (conj B1 (conj B2 (conj B3 (conj B4 _)))).
    intros i j. rewrite B5. apply (graph_mat R). rewrite Forall_forall. intros p Hp. apply filter_In in Hp. lia.
  - right. split; [intros Hf; apply Hi in Hf; congruence|exact H].
Qed.

Lemma graph_is_laplacian (R : ring_laws S) file A : seqb (s1 : T) s1 = true -> seqb (sopp s1 : T) (sopp s1) = true ->
  read_graph_list (S := S) file = Ok A -> csr_valid A /\ c_rows A = c_cols A /\ laplacian (c_cols A) (csr_mat A).
Proof.
  intros H1 H2 E. pose proof (graph_any (S := S) file H1 H2) as H. cbv zeta in H. set (es := edges (records (extract2 scan_int scan_int) file)) in *.
  destruct (forallb (fun p : Z * Z => 0 <=? fst p) es) eqn:Eb; [|congruence].
  destruct (assembles_is R _ _ _ _ H) as (B & B1 & B2 & B3 & B4 & B5). rewrite E in B1. injection B1 as <-. split; [exact B2|]. split; [congruence|].
  assert (He : Forall (fun p => 0 <= fst p /\ fst p < snd p /\ snd p < c_cols A) es).
  { rewrite Forall_forall. intros p Hp. rewrite forallb_forall in Eb. specialize (Eb p Hp). cbv beta in Eb.
    assert (snd p < col_bound (map snd es)) by (apply col_bound_lt, in_map, Hp). apply filter_In in Hp. lia. }
  split.
  - intros i j. rewrite !B5. apply (graph_symmetric R). eapply Forall_impl; [|exact He]. intros p (_ & Hp & _). exact Hp.
  - intros i. rewrite (sum_range_ext 0 (c_cols A) (csr_mat A i) (mat_of (flat_map edge_entries es) i)); [|intros; apply B5]. apply (graph_row_sum R). exact He.
Qed.

Lemma graph_signs (R : ring_laws S) (O : order_laws S) (P : sum_order_laws S) : sle (s0 : T) s1 -> seqb (s1 : T) s1 = true -> seqb (sopp s1 : T) (sopp s1) = true ->
  forall file A, read_graph_list (S := S) file = Ok A -> forall i j, if i =? j then sle s0 (csr_mat A i j) else sle (csr_mat A i j) s0.
Proof.
  intros Hp H1 H2 file A E i j. pose proof (graph_laplacian R file H1 H2) as H. cbv zeta in H. destruct H as [(_ & B & EB & _ & _ & _ & HB)|(_ & H)]; [|congruence].
  rewrite E in EB. injection EB as <-. rewrite HB. assert (Hz : sadd s0 s0 = (s0 : T)) by apply (Radd_0_l R).
  destruct (i =? j); [apply copies_nonneg; assumption|]. pose proof (copies_nonneg P O (multiplicity (edges (records (extract2 scan_int scan_int) file)) i j) s1 Hz Hp) as Hc.
  set (c := copies _ _) in *. pose proof (sle_add _ P _ _ _ _ Hc (slt_irrefl _ O (sopp c))) as Hs. rewrite (Radd_0_l R), (Ropp_def R) in Hs. exact Hs.
Qed.

Lemma table_of_empty (A : csr) : csr_valid A -> int_sized A -> nnz A = 0 -> exists f, write_table A = Ok f /\ read_table (S := S) f = Fail FUB.
Proof.
  intros V Hz Hn. eexists. split; [apply (write_table_all A V)|].
  assert (Hi : c_idx A = []) by (pose proof (cv_len V) as Hl; unfold nnz in Hn; rewrite Hn in Hl; destruct (c_idx A); [reflexivity|rewrite zlen_cons in Hl; pose proof (zlen_nonneg l); lia]).
  apply (read_table_empty (map (ParserMore.row_cols A) (zrange 0 (c_rows A)))).
  - rewrite <- (flat_map_map (fun r => join r ++ [NL]) (ParserMore.row_cols A)). apply (table_written A). rewrite Forall_forall. intros r Hr. apply in_map_iff in Hr. destruct Hr as (i & <- & Hi').
    rewrite Forall_forall. intros c Hc. assert (In c (List.concat (map (ParserMore.row_cols A) (zrange 0 (c_rows A))))) as Hin by (apply in_concat; exists (ParserMore.row_cols A i); split; [apply in_map, Hi'|exact Hc]).
    rewrite (concat_row_cols A V), Hi in Hin. destruct Hin.
  - rewrite (concat_row_cols A V). exact Hi.
Qed.

Lemma mtx_general cs rows cols n (es : list (entry S)) file : mtx_file (triple_text C) cs rows cols n es file -> ~ Exists says_symmetric cs ->
  0 <= rows <= int_max -> 0 <= cols <= int_max -> 0 <= n <= int_max -> addable (from_one es) -> in_shape rows cols (from_one es) ->
  assembles (read_mtx C file) rows cols (from_one es).
Proof.
  intros Hf Hs Hr Hc Hn Ha Hi. assert (E : existsb (contains (txt "symmetric")) cs = false) by (apply not_true_iff_false; rewrite contains_symmetric; exact Hs).
  pose proof (read_mtx_any C cs rows cols n es file Hf Hr Hc Hn Ha) as H. rewrite E in H. apply H, Hi.
Qed.
Lemma mtx_symmetric cs rows cols n (es : list (entry S)) file : mtx_file (triple_text C) cs rows cols n es file -> Exists says_symmetric cs ->
  0 <= rows <= int_max -> 0 <= cols <= int_max -> 0 <= n <= int_max -> addable (from_one es) -> in_shape rows cols (mirror (from_one es)) ->
  assembles (read_mtx C file) rows cols (mirror (from_one es)).
Proof.
  intros Hf Hs Hr Hc Hn Ha Hi. apply contains_symmetric in Hs.
  pose proof (read_mtx_any C cs rows cols n es file Hf Hr Hc Hn Ha) as H. rewrite Hs in H. apply H, Hi.
Qed.

Lemma mtx_general_matrix (R : ring_laws S) cs rows cols n (es : list (entry S)) file : mtx_file (triple_text C) cs rows cols n es file -> ~ Exists says_symmetric cs ->
  0 <= rows <= int_max -> 0 <= cols <= int_max -> 0 <= n <= int_max -> addable (from_one es) -> in_shape rows cols (from_one es) ->
  is_matrix (read_mtx C file) rows cols (mat_of (from_one es)).
Proof. intros. apply (assembles_is R). eapply mtx_general; eauto. Qed.

Lemma mtx_pattern cs rows cols n ps file : mtx_file pair_text cs rows cols n ps file ->
  0 <= rows <= int_max -> 0 <= cols <= int_max -> 0 <= n <= int_max -> seqb (s1 : T) s1 = true ->
  (Exists says_symmetric cs -> in_shape rows cols (mirror (from_one (ones (S := S) ps))) ->
     assembles (S := S) (read_mtx_list file) rows cols (mirror (from_one (ones ps)))) /\
  (~ Exists says_symmetric cs -> in_shape rows cols (from_one (ones (S := S) ps)) ->
     assembles (S := S) (read_mtx_list file) rows cols (from_one (ones ps))).
Proof.
  intros Hf Hr Hc Hn H1. pose proof (read_mtx_list_any (S := S) cs rows cols n ps file Hf Hr Hc Hn H1) as H. split; intros Hs Hi.
  - apply contains_symmetric in Hs. rewrite Hs in H. apply H, Hi.
  - assert (E : existsb (contains (txt "symmetric")) cs = false) by (apply not_true_iff_false; rewrite contains_symmetric; exact Hs). rewrite E in H. apply H, Hi.
Qed.

Section Transposed.
Context (R : ring_laws S).
Let Rth : ring_theory (@s0 S) s1 sadd smul ssub sopp (@eq (car S)) := R.
Add Ring LinksRing : Rth.
Definition flip (e : entry S) : entry S := (ecol e, erow e, evalue e).
Lemma mat_of_flip (l : list (entry S)) i j : mat_of (map flip l) i j = mat_of l j i.
Proof.
  induction l as [|e l IH]; [reflexivity|]. cbn [map]. rewrite !(mat_of_cons R), IH. f_equal. unfold flip, at_pos, erow, ecol, evalue. cbn [fst snd]. now rewrite andb_comm.
Qed.
Lemma mat_of_mirror_flip (l : list (entry S)) i j : mat_of (mirror l) i j = mat_of (mirror (map flip l)) i j.
Proof.
  induction l as [|e l IH]; [reflexivity|]. change (e :: l) with ([e] ++ l). rewrite map_app, !mirror_app, !(mat_of_app R), IH. f_equal. clear IH.
  unfold mirror. cbn [map flat_map]. rewrite !app_nil_r. unfold flip at 1 2, erow, ecol. cbn [fst snd]. destruct e as [[a b] v]. unfold flip, erow, ecol, evalue. cbn [fst snd].
  rewrite (Z.eqb_sym b a). destruct (Z.eqb_spec a b) as [->|Hn]; [reflexivity|]. rewrite !(mat_of_cons R). change (mat_of [] i j) with (s0 : T). ring.
Qed.
End Transposed.

Lemma mtx_symmetric_lower (R : ring_laws S) cs n k (es : list (entry S)) file : mtx_file (triple_text C) cs n n k es file -> Exists says_symmetric cs ->
  0 <= n <= int_max -> 0 <= k <= int_max -> addable (from_one es) -> in_shape n n (from_one es) -> Forall (fun e => ecol e <= erow e) es ->
  is_matrix (read_mtx C file) n n (fun i j => if j <=? i then mat_of (from_one es) i j else mat_of (from_one es) j i).
Proof.
  intros Hf Hs Hn Hk Ha Hi Hl.
  assert (Hm : in_shape n n (mirror (from_one es))).
  { unfold in_shape in *. rewrite Forall_forall in *. intros e He. unfold mirror in He. apply in_flat_map in He. destruct He as (a & Hin & He). specialize (Hi a Hin).
    destruct (erow a =? ecol a); cbn in He; destruct He as [<-|He]; try lia; destruct He as [<-|[]]; unfold erow, ecol in *; cbn [fst snd]; lia. }
  pose proof (mtx_symmetric cs n n k es file Hf Hs Hn Hn Hk Ha Hm) as H. destruct (assembles_is R _ _ _ _ H) as (B & H1 & H2 & H3 & H4 & H5).
  exists B. refine (conj H1 (conj H2 (conj H3 (conj H4 _)))). intros i j. rewrite H5, (mat_of_mirror_flip R), (mat_of_mirror R).
  - rewrite !(mat_of_flip R). destruct (Z.leb_spec i j), (Z.leb_spec j i); try reflexivity; [|lia]. now replace i with j by lia.
  - rewrite Forall_forall in *. intros e He. apply in_map_iff in He. destruct He as (a & <- & Hin). unfold from_one in Hin. apply in_map_iff in Hin. destruct Hin as (c & <- & Hin).
    specialize (Hl c Hin). unfold flip, erow, ecol in *. cbn [fst snd]. lia.
Qed.

End Links.

(* ---------------------------------------------------------------- doubles *)

Lemma scan_double_takes : takes scan_double.
Proof.
  intros l v ok r. unfold scan_double. destruct (scan_sign l) as [neg l1] eqn:E1. apply scan_sign_length in E1.
  destruct (span is_digit l1) as [ip l2] eqn:E2. apply span_length in E2.
  destruct (match l2 with [] => ([], l2) | b :: l' => if b =? DOT then span is_digit l' else ([], l2) end) as [fp l3] eqn:E3.
  assert (H3 : (List.length fp + List.length l3 <= List.length l2)%nat).
  { destruct l2 as [|b l']; [injection E3 as <- <-; cbn; lia|]. destruct (b =? DOT).
    - apply span_length in E3. cbn [List.length]. lia.
    - injection E3 as <- <-. cbn [List.length]. lia. }
  destruct (ip ++ fp) as [|d ds] eqn:Ed.
  - intros E. injection E as _ <- <-. split; [lia|discriminate].
  - assert (Hd : (0 < List.length ip + List.length fp)%nat) by (rewrite <- app_length; unfold byte in *; rewrite Ed; cbn; lia).
    destruct (match l3 with [] => (0, true, l3) | b :: l' => _ end) as [[ex k] l4] eqn:E4.
    assert (H4 : (List.length l4 <= List.length l3)%nat).
    { destruct l3 as [|b l']; [injection E4 as _ _ <-; lia|]. destruct ((b =? EE) || (b =? 69)); [|injection E4 as _ _ <-; lia].
      destruct (scan_sign l') as [eneg l5] eqn:E5. apply scan_sign_length in E5. destruct (span is_digit l5) as [es l6] eqn:E6. apply span_length in E6.
      destruct es; injection E4 as _ _ <-; cbn [List.length] in *; lia. }
    destruct k.
    + destruct (round_double _ _ _) as [x fits]. intros E. injection E as _ _ <-. split; [|intros _]; unfold byte in *; lia.
    + intros E. injection E as _ <- <-. split; [|discriminate]. unfold byte in *; lia.
Qed.

Lemma infinity_not_read (x : spec_float) (v : list spec_float) : ~ finite x -> valid_binary 53 1024 x = true ->
  read_text double_codec (write_text double_codec (x :: v)) = Ok [].
Proof.
  intros Hf Hv. unfold write_text. cbn [flat_map]. rewrite text_anything by exact scan_double_takes.
  destruct x as [s|s| |s m e]; [destruct (Hf I)|destruct s; reflexivity|reflexivity|destruct (Hf I)].
Qed.
Lemma pairs_of_file ps file : file_of pair_text ps file -> records (extract2 scan_int scan_int) file = ps.
Proof.
  intros H. apply (records_from_file _ pair_text); [exact reads_rec2|exact H|].
  assert (G : forall xs f, file_of pair_text xs f -> (List.length xs <= List.length f)%nat); [|specialize (G _ _ H); lia].
  clear. induction 1 as [|w x t rest xs Hw Ht He Hf IH]; [cbn; lia|]. rewrite !app_length. cbn [List.length].
  assert (t <> []) as Hne by (exact (pair_nonempty x t Ht)). destruct t; [congruence|]. cbn [List.length]. lia.
Qed.
