(** Proofs about the text readers and writers. *)

From Coq Require Import ZArith List Bool Lia String.
From Verif Require Import Base Scalar Spec Dense Sparse Coo CooSpec Text Parser ParserSpec TextProofs.
From Verif Require Import SumFacts LoopFacts CsrFacts Rows CooProofs CooMore HistoryProofs.
Import ListNotations.
Open Scope Z_scope.

Section ParserProofs.
Context {S : scalar}.
Notation T := (car S).
Notation csr := (csr S).
Context (C : codec S).

(* ---------------------------------------------------------------- files of lines *)

Lemma file_lines {X} (text : X -> list byte -> Prop) (render : X -> list byte) xs : (forall x, In x xs -> text x (render x)) ->
  forall w, white w -> file_of text xs (w ++ flat_map (fun x => render x ++ [NL]) xs).
Proof.
  induction xs as [|x xs IH]; intros H w Hw; cbn [flat_map].
  - rewrite app_nil_r. constructor. exact Hw.
  - rewrite <- !app_assoc. apply file_rec.
    + exact Hw.
    + apply H. left; reflexivity.
    + reflexivity.
    + apply IH; [intros y Hy; apply H; right; exact Hy|]. repeat constructor.
Qed.
Lemma file_lines0 {X} (text : X -> list byte -> Prop) (render : X -> list byte) xs : (forall x, In x xs -> text x (render x)) ->
  file_of text xs (flat_map (fun x => render x ++ [NL]) xs).
Proof. intros H. apply (file_lines text render xs H []). constructor. Qed.

Lemma while_file {X St : Type} (rd : istream -> option X * istream) text (body : X -> St -> res St) xs file st :
  reads_rec rd text -> (forall x t, text x t -> t <> []) -> file_of text xs file ->
  while_read (fuel_of (IS file true)) rd body (IS file true) st = foldM (fun st x => body x st) xs st.
Proof.
  intros H1 H2 H3. apply (while_read_file _ _ _ H1 _ _ H3). unfold fuel_of. cbn [i_rest]. pose proof (file_length _ H2 _ _ H3). lia.
Qed.

Lemma foldM_push {X : Type} (l : list X) : forall acc, foldM (fun st x => Ok (st ++ [x])) l acc = Ok (acc ++ l).
Proof.
  induction l as [|x l IH]; intros acc; cbn [foldM bind]; [now rewrite app_nil_r|]. rewrite IH, <- app_assoc. reflexivity.
Qed.

(** ReadText on any layout. *)
Lemma read_text_any vs file : file_of (reads_as (tc_scan C)) vs file -> read_text C file = Ok vs.
Proof.
  intros H. unfold read_text. rewrite (while_file _ _ _ _ _ _ (reads_rec1 (tc_scan C)) (fun x t => reads_as_nonempty (tc_scan C) x t) H).
  apply foldM_push.
Qed.
Lemma text_round_trip vs : Forall (survives C 16) vs -> read_text C (write_text C vs) = Ok vs.
Proof.
  intros H. apply read_text_any. apply (file_lines0 _ (tc_fmt C 16)). intros v Hv. rewrite Forall_forall in H. apply H, Hv.
Qed.

(* ---------------------------------------------------------------- assembling *)

Lemma add_sym_entries sym M (e : entry S) :
  add_maybe_sym sym (erow e) (ecol e) (evalue e) M = foldM coo_add_entry (maybe_mirror sym [e]) M.
Proof.
  unfold add_maybe_sym, maybe_mirror. destruct sym; cbn [andb].
  - cbn [mirror flat_map app]. unfold coo_add_entry. destruct (erow e =? ecol e); cbn [negb foldM app].
    + reflexivity.
    + destruct (coo_add M (erow e) (ecol e) (evalue e)) as [M1|]; [|reflexivity]. cbn [bind foldM erow ecol evalue fst snd].
      destruct (coo_add M1 _ _ _); reflexivity.
  - cbn [foldM]. reflexivity.
Qed.
Lemma mirror_app (l1 l2 : list (entry S)) : mirror (l1 ++ l2) = mirror l1 ++ mirror l2.
Proof. unfold mirror. apply flat_map_app. Qed.
Lemma maybe_mirror_cons sym (e : entry S) l : maybe_mirror sym (e :: l) = maybe_mirror sym [e] ++ maybe_mirror sym l.
Proof. unfold maybe_mirror. destruct sym; [|reflexivity]. change (e :: l) with ([e] ++ l). apply mirror_app. Qed.

Lemma add_sym_all sym (l : list (entry S)) : forall M,
  foldM (fun M e => add_maybe_sym sym (erow e) (ecol e) (evalue e) M) l M = foldM coo_add_entry (maybe_mirror sym l) M.
Proof.
  induction l as [|e l IH]; intros M.
  - unfold maybe_mirror. destruct sym; reflexivity.
  - rewrite maybe_mirror_cons, foldM_app. cbn [foldM]. rewrite add_sym_entries.
    destruct (foldM coo_add_entry (maybe_mirror sym [e]) M); cbn [bind]; [apply IH|reflexivity].
Qed.

Lemma mirror_addable sym (l : list (entry S)) : addable l -> addable (maybe_mirror sym l).
Proof.
  intros H. destruct sym; [|exact H]. unfold maybe_mirror, mirror, addable in *. rewrite Forall_forall in *. intros e He.
  apply in_flat_map in He. destruct He as (e0 & H0 & He). specialize (H e0 H0). destruct (erow e0 =? ecol e0).
  - destruct He as [<-|[]]. exact H.
  - destruct He as [<-|[<-|[]]]; [exact H|]. cbn. tauto.
Qed.

(** Reading records into an undeclared CooMatrix. *)
Lemma assemble_undeclared (l : list (entry S)) : addable l ->
  assembles (M <- foldM coo_add_entry l coo_new ;; coo_to_sparse M) (Z.max 1 (bound erow l)) (Z.max 1 (bound ecol l)) l.
Proof.
  intros H. rewrite coo_add_all_ok.
  2: { eapply Forall_impl; [|exact H]. intros e (H1 & H2 & H3). unfold entry_ok. cbn. repeat split; auto; discriminate. }
  cbn [bind]. destruct (coo_to_sparse_exact (coo_app coo_new l)) as (A & E & V & Er & Ec & ND & Hi).
  { unfold coo_ok. cbn. split; [lia|]. split; [lia|]. eapply Forall_impl; [|exact H]. intros e (H1 & H2 & _). auto. }
  exists A. rewrite find_size_assembled in Er, Ec. cbn in Er, Ec. exact (conj E (conj V (conj Er (conj Ec (conj ND Hi))))).
Qed.
(** Reading records into a CooMatrix of a given size. *)
Lemma assemble_declared rows cols (l : list (entry S)) : 0 <= rows -> 0 <= cols -> addable l -> in_shape rows cols l ->
  assembles (M <- foldM coo_add_entry l (Coo rows cols true []) ;; coo_to_sparse M) rows cols l.
Proof.
  intros Hr Hc H Hs. rewrite coo_add_all_ok.
  2: { unfold in_shape, addable in *. rewrite Forall_forall in *. intros e He. destruct (H e He) as (H1 & H2 & H3).
       unfold entry_ok. cbn. repeat split; auto; intros; apply Hs; exact He. }
  cbn [bind]. destruct (coo_to_sparse_exact (coo_app (Coo rows cols true []) l)) as (A & E & V & Er & Ec & ND & Hi).
  { unfold coo_ok. cbn. auto. }
  exists A. exact (conj E (conj V (conj Er (conj Ec (conj ND Hi))))).
Qed.

(** With exact arithmetic the result is the matrix of the entries. *)
Lemma assembles_mat (R : ring_laws S) (m : res csr) rows cols (l : list (entry S)) : assembles m rows cols l ->
  exists A, m = Ok A /\ csr_valid A /\ c_rows A = rows /\ c_cols A = cols /\ no_dup_coords (entries A) /\
    forall i j, csr_mat A i j = mat_of l i j.
Proof.
  intros (A & E & V & Er & Ec & ND & Hi). exists A. repeat (split; [assumption|]). intros i j. apply (mat_of_stored R); auto.
  intros v. rewrite Hi. change (fold_left sadd (map evalue (filter (at_pos i j) l)) s0) with (sum_at l i j).
  rewrite (sum_at_mat R). tauto.
Qed.

(* ---------------------------------------------------------------- the readers on any layout *)

Lemma read_coo_any es file sym : file_of (triple_text C) es file -> addable es ->
  assembles (read_coo_list C file sym) (Z.max 1 (bound erow (maybe_mirror sym es))) (Z.max 1 (bound ecol (maybe_mirror sym es))) (maybe_mirror sym es).
Proof.
  intros H Ha. unfold read_coo_list. rewrite (while_file _ _ _ _ _ _ (reads_rec3 C) (triple_nonempty C) H).
  rewrite (foldM_ext _ (fun M (e : entry S) => add_maybe_sym sym (erow e) (ecol e) (evalue e) M)) by (intros s [[i j] v] _; reflexivity).
  rewrite add_sym_all. apply assemble_undeclared, mirror_addable, Ha.
Qed.
Lemma read_adj_any ps file sym : file_of pair_text ps file -> Forall (fun p => 0 <= fst p /\ 0 <= snd p) ps -> seqb (s1 : T) s1 = true ->
  assembles (S := S) (read_adj_list file sym) (Z.max 1 (bound erow (maybe_mirror sym (ones (S := S) ps)))) (Z.max 1 (bound ecol (maybe_mirror sym (ones (S := S) ps))))
    (maybe_mirror sym (ones ps)).
Proof.
  intros H Ha H1. unfold read_adj_list. rewrite (while_file _ _ _ _ _ _ reads_rec2 pair_nonempty H).
  replace (foldM (fun st (x : Z * Z) => let (i, j) := x in add_maybe_sym sym i j s1 st) ps coo_new)
    with (foldM (fun M (e : entry S) => add_maybe_sym sym (erow e) (ecol e) (evalue e) M) (ones ps) coo_new)
    by (unfold ones; rewrite foldM_map; apply foldM_ext; intros s [i j] _; reflexivity).
  rewrite add_sym_all. apply assemble_undeclared, mirror_addable. unfold ones, addable. rewrite Forall_map. eapply Forall_impl; [|exact Ha].
  intros [i j] [K1 K2]. cbn. auto.
Qed.

(* ---------------------------------------------------------------- Matrix Market *)

Lemma getline_line l rest : ~ In NL l -> getline (IS (l ++ NL :: rest) true) = (Some l, IS rest true).
Proof.
  intros H. unfold getline. cbn [i_ok i_rest].
  assert (E : span (fun b => negb (b =? NL)) (l ++ NL :: rest) = (l, NL :: rest)).
  { apply span_all; [|reflexivity]. rewrite Forall_forall. intros b Hb. apply negb_true_iff, Z.eqb_neq. intros ->. exact (H Hb). }
  destruct (l ++ NL :: rest) as [|b l'] eqn:El; [destruct l; discriminate|]. rewrite E. reflexivity.
Qed.

Lemma header_comments (cs : list (list byte)) line rest : Forall comment cs -> ~ In NL line ->
  match line with 37 :: _ => False | _ => True end ->
  forall fuel sym, (List.length cs < fuel)%nat ->
  mtx_header fuel (IS (flat_map (fun c => c ++ [NL]) cs ++ line ++ NL :: rest) true) sym =
    Ok (line, IS rest true, sym || existsb (contains (txt "symmetric")) cs).
Proof.
  intros Hc Hl Hp. induction cs as [|c cs IH]; intros fuel sym Hf; (destruct fuel as [|fuel]; [cbn in Hf; lia|]); cbn [mtx_header flat_map app].
  - rewrite getline_line by exact Hl. rewrite orb_false_r.
    destruct line as [|b line]; [reflexivity|]. destruct b as [|p|p]; try reflexivity.
    do 7 (try destruct p as [p|p|]; try reflexivity). contradiction.
  - destruct (Forall_inv Hc) as (l & -> & Hl1). rewrite <- !app_assoc. cbn [app].
    change (37 :: l ++ NL :: flat_map (fun c => c ++ [NL]) cs ++ line ++ NL :: rest) with ((37 :: l) ++ NL :: flat_map (fun c => c ++ [NL]) cs ++ line ++ NL :: rest).
    rewrite getline_line by (intros [E|E]; [discriminate|exact (Hl1 E)]).
    rewrite IH by (try exact (Forall_inv_tail Hc); cbn in Hf; lia). cbn [existsb]. rewrite orb_assoc. reflexivity.
Qed.

Lemma digits_no_nl ds : Forall (fun b => is_digit b = true) ds -> ~ In NL ds.
Proof. rewrite Forall_forall. intros H Hi. specialize (H NL Hi). discriminate. Qed.
Lemma fmt_int_no_nl n : ~ In NL (fmt_int n).
Proof.
  destruct (fmt_int_form n) as (neg & ds & -> & H1 & _). intros H. apply in_app_or in H. destruct H as [H|H].
  - destruct neg; [|contradiction]. destruct H as [H|[]]. discriminate.
  - exact (digits_no_nl ds H1 H).
Qed.
Lemma fmt_int_head_not_comment n l : match fmt_int n ++ l with 37 :: _ => False | _ => True end.
Proof.
  destruct (fmt_int_form n) as (neg & ds & -> & H1 & H2 & _). destruct neg; [exact I|]. destruct ds as [|d ds]; [congruence|].
  cbn [app]. pose proof (Forall_inv H1) as Hd. cbv beta in Hd. destruct (Z.eq_dec d 37) as [->|Hne]; [discriminate|].
  destruct d as [|p|p]; try exact I. do 7 (try destruct p as [p|p|]; try exact I). congruence.
Qed.

Definition sizes rows cols nnz : list byte := fmt_int rows ++ [SP] ++ fmt_int cols ++ [SP] ++ fmt_int nnz.
Lemma sizes_no_nl rows cols nnz : ~ In NL (sizes rows cols nnz).
Proof.
  unfold sizes. intros H. repeat (apply in_app_or in H; destruct H as [H|H]; [first [exact (fmt_int_no_nl _ H)|destruct H as [H|[]]; discriminate]|]).
  exact (fmt_int_no_nl _ H).
Qed.
Lemma size_line_sizes rows cols nnz l : size_line rows cols nnz ++ l = sizes rows cols nnz ++ NL :: l.
Proof. unfold size_line, sizes. rewrite <- !app_assoc. reflexivity. Qed.

Lemma mtx_start_ok rows cols nnz : 0 <= rows <= int_max -> 0 <= cols <= int_max -> 0 <= nnz <= int_max ->
  mtx_start (sizes rows cols nnz) = Ok (Coo (S := S) rows cols true []).
Proof.
  intros H1 H2 H3. unfold mtx_start, sizes. assert (F : forall n, 0 <= n <= int_max -> fits_int n) by (intros n H; unfold fits_int, int_min; lia).
  replace (fmt_int rows ++ [SP] ++ fmt_int cols ++ [SP] ++ fmt_int nnz) with ([] ++ fmt_int rows ++ ([SP] ++ fmt_int cols ++ [SP] ++ fmt_int nnz)) by reflexivity.
  rewrite (extract_reads _ rows (fmt_int rows)) by (try constructor; apply int_reads, F, H1).
  replace ([SP] ++ fmt_int cols ++ [SP] ++ fmt_int nnz) with ([SP] ++ fmt_int cols ++ ([SP] ++ fmt_int nnz)) by reflexivity.
  rewrite (extract_reads _ cols (fmt_int cols)) by (try (repeat constructor); apply int_reads, F, H2).
  replace ([SP] ++ fmt_int nnz) with ([SP] ++ fmt_int nnz ++ []) by (rewrite app_nil_r; reflexivity).
  rewrite (extract_reads _ nnz (fmt_int nnz)) by (try (repeat constructor); apply int_reads, F, H3).
  cbn [uninit bind]. unfold coo_new_size. destruct (Z.leb_spec 0 rows); [|lia]. destruct (Z.leb_spec 0 cols); [|lia]. cbn [assert_ bind].
  destruct (Z.ltb_spec nnz 0); [lia|reflexivity].
Qed.

Lemma mtx_file_header {X} (text : X -> list byte -> Prop) cs rows cols nnz xs file : mtx_file text cs rows cols nnz xs file ->
  exists body, file_of text xs body /\
    mtx_header (fuel_of (IS file true)) (IS file true) false = Ok (sizes rows cols nnz, IS body true, existsb (contains (txt "symmetric")) cs).
Proof.
  intros (Hc & body & Hb & ->). exists body. split; [exact Hb|]. rewrite size_line_sizes.
  rewrite header_comments; [reflexivity|exact Hc|apply sizes_no_nl|apply fmt_int_head_not_comment|].
  unfold fuel_of. cbn [i_rest]. rewrite app_length. set (k := List.length (sizes rows cols nnz ++ NL :: body)). clearbody k. induction cs as [|c cs IH]; [cbn; lia|].
  specialize (IH (Forall_inv_tail Hc)). cbn [flat_map List.length]. rewrite !app_length. cbn [List.length]. lia.
Qed.

Lemma from_one_addable es : Forall (fun e : entry S => 1 <= erow e /\ 1 <= ecol e /\ seqb (evalue e) (evalue e) = true) es -> addable (from_one es).
Proof. intros H. unfold addable, from_one. rewrite Forall_map. eapply Forall_impl; [|exact H]. intros e (H1 & H2 & H3). cbn. repeat split; auto; lia. Qed.

Lemma read_mtx_any cs rows cols nnz es file : mtx_file (triple_text C) cs rows cols nnz es file ->
  0 <= rows <= int_max -> 0 <= cols <= int_max -> 0 <= nnz <= int_max ->
  addable (from_one es) -> in_shape rows cols (maybe_mirror (existsb (contains (txt "symmetric")) cs) (from_one es)) ->
  assembles (read_mtx C file) rows cols (maybe_mirror (existsb (contains (txt "symmetric")) cs) (from_one es)).
Proof.
  intros H Hr Hc Hn Ha Hs. destruct (mtx_file_header _ _ _ _ _ _ _ H) as (body & Hb & Eh). unfold read_mtx. rewrite Eh. cbn [bind].
  rewrite mtx_start_ok by assumption. cbn [bind]. rewrite (while_file _ _ _ _ _ _ (reads_rec3 C) (triple_nonempty C) Hb).
  set (sym := existsb _ cs) in *.
  replace (foldM (fun st (x : Z * Z * T) => let '(i, j, v) := x in add_maybe_sym sym (i - 1) (j - 1) v st) es (Coo rows cols true []))
    with (foldM (fun M (e : entry S) => add_maybe_sym sym (erow e) (ecol e) (evalue e) M) (from_one es) (Coo rows cols true []))
    by (unfold from_one; rewrite foldM_map; apply foldM_ext; intros s [[i j] v] _; reflexivity).
  rewrite add_sym_all. apply assemble_declared; try lia; auto using mirror_addable.
Qed.
Lemma read_mtx_list_any cs rows cols nnz ps file : mtx_file pair_text cs rows cols nnz ps file ->
  0 <= rows <= int_max -> 0 <= cols <= int_max -> 0 <= nnz <= int_max -> seqb (s1 : T) s1 = true ->
  in_shape rows cols (maybe_mirror (existsb (contains (txt "symmetric")) cs) (from_one (ones (S := S) ps))) ->
  assembles (S := S) (read_mtx_list file) rows cols (maybe_mirror (existsb (contains (txt "symmetric")) cs) (from_one (ones (S := S) ps))).
Proof.
  intros H Hr Hc Hn H1 Hs. destruct (mtx_file_header _ _ _ _ _ _ _ H) as (body & Hb & Eh). unfold read_mtx_list. rewrite Eh. cbn [bind].
  rewrite mtx_start_ok by assumption. cbn [bind]. rewrite (while_file _ _ _ _ _ _ reads_rec2 pair_nonempty Hb).
  set (sym := existsb _ cs) in *.
  replace (foldM (fun st (x : Z * Z) => let (i, j) := x in add_maybe_sym sym (i - 1) (j - 1) s1 st) ps (Coo rows cols true []))
    with (foldM (fun M (e : entry S) => add_maybe_sym sym (erow e) (ecol e) (evalue e) M) (from_one (ones ps)) (Coo rows cols true []))
    by (unfold from_one, ones; rewrite !foldM_map; apply foldM_ext; intros s [i j] _; reflexivity).
  rewrite add_sym_all. apply assemble_declared; try lia; auto.
  apply mirror_addable. assert (Hs' : in_shape rows cols (from_one (ones (S := S) ps))).
  { destruct sym; [|exact Hs]. unfold maybe_mirror, in_shape in Hs. unfold in_shape. rewrite Forall_forall in *. intros e He. apply Hs.
    unfold mirror. apply in_flat_map. exists e. split; [exact He|]. destruct (erow e =? ecol e); left; reflexivity. }
  unfold in_shape in Hs'. unfold addable, from_one, ones in *. rewrite !Forall_map in *. eapply Forall_impl; [|exact Hs'].
  intros [i j]. cbn. intros. repeat split; try lia. exact H1.
Qed.

Lemma starts_with_spec pat : forall l, starts_with pat l = true <-> exists b, l = pat ++ b.
Proof.
  induction pat as [|p pat IH]; intros l; cbn [starts_with app].
  - split; [eauto|reflexivity].
  - destruct l as [|c l]; [split; [discriminate|intros (b & E); discriminate]|]. rewrite andb_true_iff, Z.eqb_eq, IH. split.
    + intros (-> & b & ->). eauto.
    + intros (b & E). injection E as -> ->. eauto.
Qed.
Lemma contains_spec pat : forall l, contains pat l = true <-> exists a b, l = a ++ pat ++ b.
Proof.
  induction l as [|c l IH]; cbn [contains]; rewrite orb_true_iff, starts_with_spec.
  - split; [intros [(b & E)|H]; [exists [], b; exact E|discriminate]|].
    intros (a & b & E). left. destruct a; [|discriminate]. exists b. exact E.
  - rewrite IH. split.
    + intros [(b & E)|(a & b & ->)]; [exists [], b; exact E|exists (c :: a), b; reflexivity].
    + intros (a & b & E). destruct a as [|c' a]; [left; exists b; exact E|]. injection E as _ ->. right. eauto.
Qed.
Lemma contains_symmetric cs : existsb (contains (txt "symmetric")) cs = true <-> Exists says_symmetric cs.
Proof.
  rewrite existsb_exists, Exists_exists. split; intros (c & H1 & H2); exists c; split; auto; apply contains_spec; exact H2.
Qed.

(* ---------------------------------------------------------------- the writers *)

Definition upper (sym : bool) (e : entry S) : bool := negb sym || (erow e <=? ecol e).

Lemma foldM_lines {X : Type} (render : X -> list byte) (p : X -> bool) l : forall out,
  foldM (fun out x => if p x then Ok (out ++ render x) else Ok out) l out = Ok (out ++ flat_map render (filter p l)).
Proof.
  induction l as [|x l IH]; intros out; cbn [foldM filter flat_map]; [now rewrite app_nil_r|].
  destruct (p x); cbn [bind flat_map]; rewrite IH; [rewrite <- app_assoc|]; reflexivity.
Qed.

Lemma write_lines_all A sym line (render : entry S -> list byte) : csr_valid A ->
  (forall i k, In (i, k) (positions A) -> line i (idx A k) k = Ok (render (entry_at A (i, k)))) ->
  write_lines A sym line = Ok (flat_map render (filter (upper sym) (entries A))).
Proof.
  intros V H. unfold write_lines.
  change (for_ 0 (c_rows A) [] _) with
    (for_entries (c_rows A) (c_ptr A) [] (fun i j out => col <- get (c_idx A) j ;;
      if negb sym || (i <=? col) then l <- line i col j ;; Ok (out ++ l) else Ok out)).
  rewrite (for_entries_entries A [] _ (fun out e => if upper sym e then Ok (out ++ render e) else Ok out) V).
  - rewrite (foldM_lines render (upper sym)). reflexivity.
  - intros i k out Hp. destruct (position_bounds A i k V Hp) as [Hi Hk]. rewrite get_idx by auto. cbn [bind].
    unfold upper. cbn [entry_at erow ecol fst snd]. destruct (negb sym || (i <=? idx A k)); [|reflexivity].
    rewrite (H i k Hp). reflexivity.
Qed.

Definition pair_line (e : entry S) : list byte := fmt_int (erow e) ++ [SP] ++ fmt_int (ecol e).
Definition triple_line (p : Z) (e : entry S) : list byte := fmt_int (erow e) ++ [SP] ++ fmt_int (ecol e) ++ [SP] ++ tc_fmt C p (evalue e).

Lemma write_adj_all A sym : csr_valid A ->
  write_adj_list A sym = Ok (flat_map (fun e => pair_line e ++ [NL]) (filter (upper sym) (entries A))).
Proof.
  intros V. unfold write_adj_list. rewrite (write_lines_all A sym _ (fun e => pair_line e ++ [NL]) V); [reflexivity|].
  intros i k _. unfold pair_line. rewrite <- !app_assoc. reflexivity.
Qed.
Lemma write_coo_all A sym : csr_valid A ->
  write_coo_list C A sym = Ok (flat_map (fun e => triple_line 6 e ++ [NL]) (filter (upper sym) (entries A))).
Proof.
  intros V. unfold write_coo_list. rewrite (write_lines_all A sym _ (fun e => triple_line 6 e ++ [NL]) V); [reflexivity|].
  intros i k Hp. destruct (position_bounds A i k V Hp) as [Hi Hk]. rewrite get_val by auto. cbn [bind]. unfold triple_line. rewrite <- !app_assoc. reflexivity.
Qed.
Lemma write_mtx_all A : csr_valid A ->
  write_mtx C A = Ok (flat_map (fun c => c ++ [NL]) [txt "%MatrixMarket matrix coordinate real general"] ++ size_line (c_rows A) (c_cols A) (nnz A) ++
    flat_map (fun e => triple_line 16 (erow e + 1, ecol e + 1, evalue e) ++ [NL]) (entries A)).
Proof.
  intros V. unfold write_mtx.
  change (for_ 0 (c_rows A) [] _) with
    (for_entries (c_rows A) (c_ptr A) [] (fun i j out => c <- get (c_idx A) j ;; v <- get (c_val A) j ;;
      Ok (out ++ fmt_int (i + 1) ++ [SP] ++ fmt_int (c + 1) ++ [SP] ++ tc_fmt C 16 v ++ [NL]))).
  rewrite (for_entries_entries A [] _ (fun out e => if true then Ok (out ++ triple_line 16 (erow e + 1, ecol e + 1, evalue e) ++ [NL]) else Ok out) V).
  - rewrite (foldM_lines (fun e => triple_line 16 (erow e + 1, ecol e + 1, evalue e) ++ [NL]) (fun _ => true)).
    cbn [bind app]. rewrite filter_all by reflexivity. unfold size_line. rewrite <- !app_assoc. reflexivity.
  - intros i k out Hp. destruct (position_bounds A i k V Hp) as [Hi Hk]. rewrite get_idx, get_val by auto. cbn [bind].
    unfold triple_line. cbn [entry_at erow ecol evalue fst snd]. rewrite <- !app_assoc. reflexivity.
Qed.

(** The entries of a valid matrix whose size fits int. *)
Lemma entries_fit (A : csr) (e : entry S) : csr_valid A -> int_sized A -> In e (entries A) ->
  (0 <= erow e < c_rows A /\ 0 <= ecol e < c_cols A) /\ fits_int (erow e) /\ fits_int (ecol e) /\ fits_int (erow e + 1) /\ fits_int (ecol e + 1).
Proof.
  intros V (H1 & H2 & _) He. pose proof (entries_in_shape A V) as Hs. unfold in_shape in Hs. rewrite Forall_forall in Hs. specialize (Hs e He).
  unfold fits_int, int_min. lia.
Qed.
Lemma entry_value (A : csr) (e : entry S) : csr_valid A -> In e (entries A) -> In (evalue e) (c_val A).
Proof.
  intros V He. apply In_entries in He. destruct He as (k & H0 & H1 & H2 & ->).
  pose proof (ptr_bounds A (erow e) V ltac:(lia)). pose proof (ptr_bounds A (erow e + 1) V ltac:(lia)).
  unfold val. apply zn_In. unfold nnz in *. pose proof (cv_len V). lia.
Qed.

Lemma pair_line_text (A : csr) (e : entry S) : csr_valid A -> int_sized A -> In e (entries A) -> pair_text (fst e) (pair_line e).
Proof.
  intros V Hz He. destruct (entries_fit A e V Hz He) as (_ & H1 & H2 & _). exists (fmt_int (erow e)), [SP], (fmt_int (ecol e)).
  split; [reflexivity|]. split; [split; [exact H1|reflexivity]|]. split; [split; [repeat constructor|discriminate]|]. split; [exact H2|reflexivity].
Qed.
Lemma triple_line_text (A : csr) p (e : entry S) : csr_valid A -> int_sized A -> In e (entries A) -> survives C p (evalue e) -> triple_text C e (triple_line p e).
Proof.
  intros V Hz He Hv. exists (pair_line e), [SP], (tc_fmt C p (evalue e)). split.
  - unfold triple_line, pair_line. rewrite <- !app_assoc. reflexivity.
  - split; [apply (pair_line_text A e V Hz He)|]. split; [split; [repeat constructor|discriminate]|]. exact Hv.
Qed.
Lemma triple_line_text1 (A : csr) p (e : entry S) : csr_valid A -> int_sized A -> In e (entries A) -> survives C p (evalue e) ->
  triple_text C (erow e + 1, ecol e + 1, evalue e) (triple_line p (erow e + 1, ecol e + 1, evalue e)).
Proof.
  intros V Hz He Hv. destruct (entries_fit A e V Hz He) as (_ & _ & _ & H1 & H2).
  exists (fmt_int (erow e + 1) ++ [SP] ++ fmt_int (ecol e + 1)), [SP], (tc_fmt C p (evalue e)). split.
  - unfold triple_line. cbn [erow ecol evalue fst snd]. rewrite <- !app_assoc. reflexivity.
  - split.
    + exists (fmt_int (erow e + 1)), [SP], (fmt_int (ecol e + 1)). cbn [fst snd].
      split; [reflexivity|]. split; [split; [exact H1|reflexivity]|]. split; [split; [repeat constructor|discriminate]|]. split; [exact H2|reflexivity].
    + split; [split; [repeat constructor|discriminate]|]. exact Hv.
Qed.

Definition value_ok (p : Z) (v : T) : Prop := survives C p v /\ seqb v v = true.

Lemma entries_addable (A : csr) : csr_valid A -> Forall (fun v => seqb v v = true) (c_val A) -> addable (entries A).
Proof.
  intros V H. unfold addable. rewrite Forall_forall in *. intros e He. pose proof (entries_in_shape A V) as Hs. unfold in_shape in Hs.
  rewrite Forall_forall in Hs. specialize (Hs e He). split; [lia|]. split; [lia|]. apply H, (entry_value A e V He).
Qed.

(* ---------------------------------------------------------------- round trips *)

Lemma coo_round_trip (A : csr) : csr_valid A -> int_sized A -> Forall (survives C 6) (c_val A) -> Forall (fun v => seqb v v = true) (c_val A) ->
  exists f, write_coo_list C A false = Ok f /\
    assembles (read_coo_list C f false) (Z.max 1 (bound erow (entries A))) (Z.max 1 (bound ecol (entries A))) (entries A).
Proof.
  intros V Hz Hs Hn. eexists. split; [apply write_coo_all, V|]. rewrite filter_all by reflexivity.
  change (entries A) with (maybe_mirror false (entries A)) at 2 3 4. apply read_coo_any; [|apply entries_addable; assumption].
  apply (file_lines0 _ (triple_line 6)). intros e He. apply (triple_line_text A); auto. rewrite Forall_forall in Hs. apply Hs, (entry_value A e V He).
Qed.

Lemma adj_round_trip (A : csr) : csr_valid A -> int_sized A -> seqb (s1 : T) s1 = true ->
  exists f, write_adj_list A false = Ok f /\
    assembles (S := S) (read_adj_list f false) (Z.max 1 (bound erow (entries A))) (Z.max 1 (bound ecol (entries A))) (ones (map fst (entries A))).
Proof.
  intros V Hz H1. eexists. split; [apply write_adj_all, V|]. rewrite filter_all by reflexivity.
  assert (Eb : forall f g : entry S -> Z, (forall e, f (fst (fst e), snd (fst e), s1) = g e) ->
    forall l, bound f (ones (map fst l)) = bound g l).
  { intros f g Hfg l. unfold bound, ones. induction l as [|e l IH]; [reflexivity|]. cbn [map fold_right]. rewrite IH, Hfg. reflexivity. }
  rewrite <- (Eb erow erow) by reflexivity. rewrite <- (Eb ecol ecol) by reflexivity.
  apply (read_adj_any _ _ false).
  - replace (flat_map (fun e => pair_line e ++ [NL]) (entries A)) with
      (flat_map (fun p => pair_line (p, s1) ++ [NL]) (map fst (entries A))) by (rewrite flat_map_concat_map, map_map, <- flat_map_concat_map; reflexivity).
    apply (file_lines0 _ (fun p => pair_line (p, s1))). intros p Hp. apply in_map_iff in Hp. destruct Hp as (e & <- & He).
    exact (pair_line_text A e V Hz He).
  - rewrite Forall_map. rewrite Forall_forall. intros e He. destruct (entries_fit A e V Hz He) as (Hb & _). unfold erow, ecol in Hb. lia.
  - exact H1.
Qed.

Lemma from_one_to (l : list (entry S)) : from_one (map (fun e => (erow e + 1, ecol e + 1, evalue e)) l) = l.
Proof.
  unfold from_one. rewrite map_map. rewrite <- (map_id l) at 2. apply map_ext. intros [[i j] v]. cbn. repeat f_equal; lia.
Qed.

Lemma mtx_round_trip (A : csr) : csr_valid A -> int_sized A -> Forall (survives C 16) (c_val A) -> Forall (fun v => seqb v v = true) (c_val A) ->
  exists f, write_mtx C A = Ok f /\ assembles (read_mtx C f) (c_rows A) (c_cols A) (entries A).
Proof.
  intros V Hz Hs Hn. eexists. split; [apply write_mtx_all, V|].
  pose proof (read_mtx_any [txt "%MatrixMarket matrix coordinate real general"] (c_rows A) (c_cols A) (nnz A)
    (map (fun e => (erow e + 1, ecol e + 1, evalue e)) (entries A))) as H.
  change (existsb (contains (txt "symmetric")) [txt "%MatrixMarket matrix coordinate real general"]) with false in H.
  rewrite from_one_to in H. cbn [maybe_mirror] in H. apply H.
  - split.
    + constructor; [|constructor]. exists (txt "MatrixMarket matrix coordinate real general"). split; [reflexivity|].
      vm_compute. intuition discriminate.
    + eexists. split; [|reflexivity].
      replace (flat_map (fun e => triple_line 16 (erow e + 1, ecol e + 1, evalue e) ++ [NL]) (entries A)) with
        (flat_map (fun e => triple_line 16 e ++ [NL]) (map (fun e => (erow e + 1, ecol e + 1, evalue e)) (entries A)))
        by (rewrite flat_map_concat_map, map_map, <- flat_map_concat_map; reflexivity).
      apply (file_lines0 _ (triple_line 16)). intros e He. apply in_map_iff in He. destruct He as (e0 & <- & He).
      apply (triple_line_text1 A); auto. rewrite Forall_forall in Hs. apply Hs, (entry_value A e0 V He).
  - destruct Hz. split; [apply (cv_rows V)|assumption].
  - destruct Hz as (_ & Hz & _). split; [apply (cv_cols V)|assumption].
  - destruct Hz as (_ & _ & Hz). split; [apply zlen_nonneg|assumption].
  - apply entries_addable; assumption.
  - apply entries_in_shape, V.
Qed.

End ParserProofs.
