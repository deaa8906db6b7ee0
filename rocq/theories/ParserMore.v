(** Compressed-row files, tables, graphs, binary files; arbitrary and truncated files. *)

From Coq Require Import ZArith List Bool Lia String.
From Verif Require Import Base Scalar Spec Dense Sparse Coo CooSpec Text Parser ParserSpec TextProofs ParserProofs.
From Verif Require Import SumFacts LoopFacts CsrFacts Rows CooProofs CooMore HistoryProofs.
Import ListNotations.
Open Scope Z_scope.

(* ---------------------------------------------------------------- any file at all *)

Lemma while_records_from {X St : Type} (rd : istream -> option X * istream) (body : X -> St -> res St) : consumes rd ->
  forall fuel s st, (List.length (i_rest s) < fuel)%nat ->
  while_read fuel rd body s st = foldM (fun st x => body x st) (records_from fuel rd s) st.
Proof.
  intros Hc. induction fuel as [|fuel IH]; intros s st Hf; [lia|]. cbn [while_read records_from].
  destruct (rd s) as [[x|] s'] eqn:E; [|reflexivity]. cbn [foldM]. destruct (body x st); [|reflexivity]. cbn [bind].
  apply IH. pose proof (Hc _ _ _ E). lia.
Qed.
Lemma while_records {X St : Type} (rd : istream -> option X * istream) (body : X -> St -> res St) file st : consumes rd ->
  while_read (fuel_of (IS file true)) rd body (IS file true) st = foldM (fun st x => body x st) (records rd file) st.
Proof. intros Hc. apply while_records_from; [exact Hc|]. unfold fuel_of. cbn [i_rest]. lia. Qed.

Lemma records_from_file {X} (rd : istream -> option X * istream) text : reads_rec rd text -> forall xs file, file_of text xs file ->
  forall fuel, (List.length xs < fuel)%nat -> records_from fuel rd (IS file true) = xs.
Proof.
  intros (H1 & H2) xs file H. induction H as [w Hw|w x t rest xs Hw Ht He Hf IH]; intros fuel Hl; (destruct fuel as [|fuel]; [cbn in Hl; lia|]); cbn [records_from].
  - destruct (H2 w Hw) as (s & ->). reflexivity.
  - rewrite (H1 x t w rest) by assumption. rewrite IH by (cbn in Hl; lia). reflexivity.
Qed.

Lemma for_S {St} lo hi (s : St) body : lo < hi -> for_ lo hi s body = (s' <- body lo s ;; for_ (lo + 1) hi s' body).
Proof. intros H. unfold for_. rewrite zrange_cons by exact H. reflexivity. Qed.
Lemma upd_app {X} (l : list X) a r b : upd (l ++ a :: r) (List.length l) b = l ++ b :: r.
Proof. induction l as [|x l IH]; cbn; [reflexivity|]. now rewrite IH. Qed.

Section ParserMore.
Context {S : scalar}.
Notation T := (car S).
Notation csr := (csr S).
Context (C : codec S).

(* ---------------------------------------------------------------- compressed rows *)

Lemma token_nonspace k t : token_text C k t -> match t with [] => False | b :: _ => is_space b = false end.
Proof.
  destruct k; cbn [token_text].
  - intros (_ & ->). apply fmt_int_head.
  - intros (_ & ->). apply fmt_int_head.
  - intros (H & _). exact H.
Qed.
Lemma extract_token {X} (scan : list byte -> X * bool * list byte) (tok : X -> token (S := S)) x xs file :
  (forall t, token_text C (tok x) t -> reads_as scan x t) -> file_of (token_text C) (tok x :: xs) file ->
  exists rest, extract scan (IS file true) = (Some x, IS rest true) /\ file_of (token_text C) xs rest.
Proof.
  intros Hs H. inversion H as [|w k t rest ks Hw Ht He Hf E1 E2]. subst. exists rest. split; [|exact Hf].
  apply extract_reads; auto.
Qed.
Lemma count_reads n t : token_text C (Count n) t -> reads_as scan_size n t.
Proof. intros (H & ->). apply size_reads, H. Qed.
Lemma index_reads n t : token_text C (Index n) t -> reads_as scan_int n t.
Proof. apply int_text_reads. Qed.
Lemma value_reads v t : token_text C (Value v) t -> reads_as (tc_scan C) v t.
Proof. exact (fun H => H). Qed.

Lemma read_array_tokens {X} (scan : list byte -> X * bool * list byte) (tok : X -> token (S := S)) (d : X) :
  (forall x t, token_text C (tok x) t -> reads_as scan x t) ->
  forall vs xs file, file_of (token_text C) (map tok vs ++ xs) file ->
  exists rest, read_array scan (zlen vs) (repeat d (Z.to_nat (zlen vs))) (IS file true) = Ok (vs, IS rest true) /\ file_of (token_text C) xs rest.
Proof.
  intros Hs vs xs file Hf. unfold read_array.
  assert (G : forall done vs file, file_of (token_text C) (map tok vs ++ xs) file ->
    exists rest, for_ (zlen done) (zlen done + zlen vs) (done ++ repeat d (Z.to_nat (zlen vs)), IS file true) (fun i st =>
      let (v, s) := (st : list X * istream) in
      let (o, s) := extract scan s in
      match o with Some a => v <- set v i a ;; Ok (v, s) | None => get v i ;;; Ok (v, s) end) = Ok (done ++ vs, IS rest true) /\
      file_of (token_text C) xs rest).
  { clear vs file Hf. intros done vs. revert done. induction vs as [|v vs IH]; intros done file Hf.
    - exists file. rewrite zlen_nil, Z.add_0_r. rewrite for_empty by lia. split; [reflexivity|exact Hf].
    - rewrite zlen_cons. cbn [map app] in Hf. destruct (extract_token scan tok v _ file (Hs v) Hf) as (rest & E & Hr).
      rewrite for_S by (pose proof (zlen_nonneg vs); lia). rewrite E.
      replace (Z.to_nat (zlen vs + 1)) with (Datatypes.S (Z.to_nat (zlen vs))) by (pose proof (zlen_nonneg vs); lia). cbn [repeat].
      assert (Es : set (done ++ d :: repeat d (Z.to_nat (zlen vs))) (zlen done) v = Ok ((done ++ [v]) ++ repeat d (Z.to_nat (zlen vs)))).
      { rewrite set_ok by (rewrite zlen_app, zlen_cons; pose proof (zlen_nonneg done); pose proof (zlen_nonneg (repeat d (Z.to_nat (zlen vs)))); lia).
        f_equal. replace (Z.to_nat (zlen done)) with (List.length done) by (unfold zlen; lia). rewrite <- app_assoc. apply upd_app. }
      rewrite Es. cbn [bind]. destruct (IH (done ++ [v]) rest Hr) as (rest' & E' & Hr'). exists rest'. split; [|exact Hr'].
      rewrite zlen_app, zlen_cons, zlen_nil in E'. rewrite <- !app_assoc in E'. cbn [app] in E'.
      replace (zlen done + (zlen vs + 1)) with (zlen done + (0 + 1) + zlen vs) by lia.
      replace (zlen done + 1) with (zlen done + (0 + 1)) by lia. rewrite <- app_assoc. exact E'. }
  exact (G [] vs file Hf).
Qed.


Lemma to_int_id n : fits_int n -> to_int n = n.
Proof. intros H. unfold to_int. unfold fits_int, int_min, int_max in H. rewrite Z.mod_small by lia. lia. Qed.

(** ReadCSR on any layout, whatever follows. *)
Lemma read_csr_any (A : csr) more file : csr_valid A -> int_sized A -> file_of (token_text C) (csr_tokens A ++ more) file -> read_csr C file = Ok A.
Proof.
  intros V (Z1 & Z2 & Z3) Hf. unfold csr_tokens in Hf. cbn [app] in Hf. unfold read_csr.
  pose proof (cv_rows V) as Hr. pose proof (cv_cols V) as Hc. pose proof (zlen_nonneg (c_val A)) as Hn. fold (nnz A) in Hn.
  destruct (extract_token scan_size Count _ _ _ (count_reads (c_rows A)) Hf) as (f1 & E1 & F1). rewrite E1.
  destruct (extract_token scan_size Count _ _ _ (count_reads (c_cols A)) F1) as (f2 & E2 & F2). rewrite E2.
  cbn [uninit bind]. assert (Em : (c_rows A + 1) mod 2 ^ 64 = zlen (c_ptr A)).
  { rewrite (cv_ptr_len V). apply Z.mod_small. unfold int_max in *. lia. }
  rewrite Em. unfold vec at 1. destruct (Z.ltb_spec (zlen (c_ptr A)) 0); [pose proof (zlen_nonneg (c_ptr A)); lia|]. cbn [bind].
  rewrite <- !app_assoc in F2. destruct (read_array_tokens scan_int Index 0 index_reads _ _ _ F2) as (f3 & E3 & F3). rewrite E3. cbn [bind].
  assert (El : get (c_ptr A) (zlen (c_ptr A) - 1) = Ok (nnz A)).
  { rewrite (cv_ptr_len V). replace (c_rows A + 1 - 1) with (c_rows A) by lia. rewrite get_ptr by (auto; lia). now rewrite (cv_last V). }
  rewrite El. cbn [bind]. unfold vec at 1 2. destruct (Z.ltb_spec (nnz A) 0); [lia|]. cbn [bind].
  assert (Ei : nnz A = zlen (c_idx A)) by (unfold nnz; symmetry; apply (cv_len V)).
  rewrite Ei at 1 2. destruct (read_array_tokens scan_int Index 0 index_reads _ _ _ F3) as (f4 & E4 & F4). rewrite E4. cbn [bind].
  unfold nnz. destruct (read_array_tokens (tc_scan C) Value s0 value_reads _ _ _ F4) as (f5 & E5 & F5). rewrite E5. cbn [bind].
  rewrite !to_int_id by (unfold fits_int, int_min; lia). apply sp_make_valid, V.
Qed.

Lemma flat_map_map {X Y W} (f : Y -> list W) (g : X -> Y) l : flat_map f (map g l) = flat_map (fun x => f (g x)) l.
Proof. induction l; cbn; [reflexivity|]. now rewrite IHl. Qed.

Lemma ptr_fits (A : csr) n : csr_valid A -> int_sized A -> In n (c_ptr A) -> fits_int n.
Proof.
  intros V (_ & _ & Hz) Hn. destruct (In_zn 0 _ _ Hn) as (i & Hi & <-). rewrite (cv_ptr_len V) in Hi.
  pose proof (ptr_bounds A i V ltac:(lia)) as Hb. unfold ptr in Hb. unfold fits_int, int_min. lia.
Qed.
Lemma idx_fits (A : csr) n : csr_valid A -> int_sized A -> In n (c_idx A) -> fits_int n.
Proof.
  intros V (_ & Hz & _) Hn. destruct (In_zn 0 _ _ Hn) as (i & Hi & <-). pose proof (cv_idx V i Hi) as Hb. unfold idx in Hb. unfold fits_int, int_min. lia.
Qed.

Definition token_render (k : token (S := S)) : list byte :=
  match k with Count n => fmt_int n | Index n => fmt_int n | Value v => tc_fmt C 16 v end.
Lemma write_csr_tokens A : write_csr C A = flat_map (fun k => token_render k ++ [NL]) (csr_tokens A).
Proof. unfold write_csr, csr_tokens. cbn [flat_map token_render]. rewrite !flat_map_app, !flat_map_map. reflexivity. Qed.
Lemma csr_round_trip (A : csr) : csr_valid A -> int_sized A -> Forall (survives C 16) (c_val A) -> read_csr C (write_csr C A) = Ok A.
Proof.
  intros V Hz Hs. apply (read_csr_any A []); [exact V|exact Hz|]. rewrite app_nil_r, write_csr_tokens. apply (file_lines0 _ token_render).
  intros k Hk. destruct Hk as [<-|[<-|Hk]].
  - pose proof (cv_rows V). destruct Hz as (Hz & _). cbn [token_text token_render]. unfold size_max, int_max in *. split; [lia|reflexivity].
  - pose proof (cv_cols V). destruct Hz as (_ & Hz & _). cbn [token_text token_render]. unfold size_max, int_max in *. split; [lia|reflexivity].
  - rewrite !in_app_iff, !in_map_iff in Hk. destruct Hk as [(n & <- & Hn)|[(n & <- & Hn)|(v & <- & Hv)]]; cbn [token_text token_render].
    + split; [apply (ptr_fits A n V Hz Hn)|reflexivity].
    + split; [apply (idx_fits A n V Hz Hn)|reflexivity].
    + rewrite Forall_forall in Hs. apply Hs, Hv.
Qed.

(* ---------------------------------------------------------------- tables *)

Lemma read_line_any row line ix : file_of int_text row line -> read_line_ints line ix = Ok (ix ++ row).
Proof.
  intros H. unfold read_line_ints.
  assert (R : reads_rec (extract_ok scan_int) int_text).
  { destruct (reads_rec1 scan_int) as (R1 & R2). split; [|exact R2]. intros x t w rest Ht. apply R1, int_text_reads, Ht. }
  assert (N : forall x t, int_text x t -> t <> []).
  { intros x t (_ & ->) E. pose proof (fmt_int_head x) as F. rewrite E in F. exact F. }
  rewrite (while_file _ _ _ _ _ _ R N H). apply foldM_push.
Qed.

Fixpoint row_ends (n : Z) (rows : list (list Z)) : list Z :=
  match rows with [] => [] | r :: rows' => (n + zlen r) :: row_ends (n + zlen r) rows' end.

Lemma read_table_rows rows file : table_file rows file -> forall fuel ip ix, (List.length file < fuel)%nat ->
  while_read fuel getline (fun line st => let (ip, ix) := (st : list Z * list Z) in
        ix <- read_line_ints line ix ;; Ok (ip ++ [zlen ix], ix)) (IS file true) (ip, ix) =
  Ok (ip ++ row_ends (zlen ix) rows, ix ++ List.concat rows).
Proof.
  induction 1 as [|row line rows rest Hl Hn Ht IH]; intros fuel ip ix Hf; (destruct fuel as [|fuel]; [cbn in Hf; lia|]); cbn [while_read].
  - cbn [getline i_ok i_rest row_ends List.concat]. now rewrite !app_nil_r.
  - rewrite getline_line by exact Hn. rewrite (read_line_any row line ix Hl). cbn [bind].
    rewrite app_length in Hf. cbn [List.length] in Hf. rewrite IH by lia. cbn [row_ends List.concat]. rewrite zlen_app, <- !app_assoc. reflexivity.
Qed.

Lemma off_rows (rows : list (list Z)) (f : Z -> list (Z * T)) : (forall i, 0 <= i < zlen rows -> f i = map (fun c => (c, s1)) (zn [] rows i)) ->
  map (off f) (zrange 0 (zlen rows + 1)) = 0 :: row_ends 0 rows /\ map fst (cat f (zlen rows)) = List.concat rows /\ map snd (cat f (zlen rows)) = map (fun _ => s1) (List.concat rows).
Proof.
  induction rows as [|r rows IH] using rev_ind; intros H.
  - repeat split; reflexivity.
  - rewrite zlen_app, zlen_cons, zlen_nil in *. pose proof (zlen_nonneg rows) as Hn.
    destruct IH as (I1 & I2 & I3).
    { intros i Hi. rewrite H by lia. rewrite zn_app_l by lia. reflexivity. }
    assert (Ef : f (zlen rows) = map (fun c => (c, s1)) r) by (rewrite H by lia; now rewrite zn_app_r, Z.sub_diag by lia).
    assert (Ec : cat f (zlen rows + (0 + 1)) = cat f (zlen rows) ++ map (fun c => (c, s1)) r).
    { unfold cat. rewrite (zrange_snoc 0 (zlen rows + (0 + 1))) by lia. replace (zlen rows + (0 + 1) - 1) with (zlen rows) by lia.
      rewrite flat_map_app. cbn [flat_map]. now rewrite app_nil_r, Ef. }
    rewrite Ec, !map_app, I2, I3, concat_app. cbn [List.concat]. rewrite app_nil_r, !map_map, map_id, map_app. repeat split.
    rewrite (zrange_snoc 0 (zlen rows + (0 + 1) + 1)) by lia. replace (zlen rows + (0 + 1) + 1 - 1) with (zlen rows + 1) by lia.
    rewrite map_app, I1. cbn [map app]. f_equal.
    assert (G : forall n, row_ends n (rows ++ [r]) = row_ends n rows ++ [n + zlen (List.concat rows) + zlen r]).
    { clear. induction rows as [|a rows IH]; intros n; cbn [row_ends app List.concat].
      - rewrite zlen_nil. f_equal. lia.
      - rewrite IH, zlen_app. f_equal. do 2 f_equal. lia. }
    rewrite G. f_equal. f_equal. rewrite <- I2, zlen_map. unfold off. replace (zlen rows + 1) with (zlen rows + (0 + 1)) by lia.
    rewrite Ec, zlen_app, zlen_map. lia.
Qed.

Lemma max_elem_bound ix : ix <> [] -> (forall c, In c ix -> 0 <= c) -> exists m, max_elem ix = Ok m /\ m + 1 = col_bound ix.
Proof.
  destruct ix as [|a ix]; [congruence|]. intros _ H. exists (fold_left Z.max ix a). split; [reflexivity|].
  cbn [col_bound fold_right]. fold (col_bound ix). assert (Ha : 0 <= a) by (apply H; left; reflexivity).
  assert (Hi : forall c, In c ix -> 0 <= c) by (intros c Hc; apply H; right; exact Hc). clear H. revert a Ha.
  induction ix as [|b ix IH]; intros a Ha; cbn [fold_left col_bound fold_right]; [lia|]. fold (col_bound ix).
  rewrite IH; [lia| |]; [intros c Hc; apply Hi; right; exact Hc|lia].
Qed.
Lemma col_bound_lt ix c : In c ix -> c < col_bound ix.
Proof.
  induction ix as [|b ix IH]; [contradiction|]. intros [->|H]; cbn [col_bound fold_right]; fold (col_bound ix); [lia|]. specialize (IH H). lia.
Qed.

(** What ReadTable makes of the rows it has read. *)
Definition table_result (rows : list (list Z)) : res csr :=
  m <- max_elem (List.concat rows) ;;
  sp_make (0 :: row_ends 0 rows) (List.concat rows) (map (fun _ => s1) (List.concat rows)) (zlen (0 :: row_ends 0 rows) - 1) (m + 1).
Lemma table_result_ok rows : List.concat rows <> [] -> (forall c, In c (List.concat rows) -> 0 <= c) ->
  exists A : csr, table_result rows = Ok A /\ csr_valid A /\ c_rows A = zlen rows /\ c_cols A = col_bound (List.concat rows) /\ entries A = table_entries rows.
Proof.
  intros Hne Hpos. set (f := fun i => map (fun c => (c, s1 : T)) (zn [] rows i)).
  exists (csr_of_rows (zlen rows) (col_bound (List.concat rows)) f).
  assert (Hin : forall i p, 0 <= i < zlen rows -> In p (f i) -> 0 <= fst p < col_bound (List.concat rows)).
  { intros i p Hi Hp. unfold f in Hp. apply in_map_iff in Hp. destruct Hp as (c & <- & Hc). cbn [fst].
    assert (In c (List.concat rows)) by (apply in_concat; exists (zn [] rows i); split; [apply zn_In, Hi|exact Hc]).
    split; [apply Hpos; assumption|apply col_bound_lt; assumption]. }
  assert (Hb : 0 <= col_bound (List.concat rows)) by (destruct (List.concat rows) as [|c l]; [congruence|]; specialize (Hpos c (or_introl eq_refl)); pose proof (col_bound_lt (c :: l) c (or_introl eq_refl)); lia).
  pose proof (zlen_nonneg rows) as Hz. destruct (off_rows rows f ltac:(reflexivity)) as (O1 & O2 & O3).
  split; [|split; [apply csr_of_rows_valid; assumption|split; [reflexivity|split; [reflexivity|]]]].
  - unfold table_result. destruct (max_elem_bound _ Hne Hpos) as (m & Em & E). rewrite Em. cbn [bind]. rewrite E. rewrite <- O1.
    replace (zlen (map (off f) (zrange 0 (zlen rows + 1))) - 1) with (zlen rows) by (rewrite zlen_map, zlen_zrange by lia; lia).
    apply sp_make_rows; auto.
  - rewrite csr_of_rows_entries. unfold table_entries. apply flat_map_ext_in. intros i _. unfold f, row_to_entries. rewrite map_map. reflexivity.
Qed.
Lemma table_result_negative rows c : In c (List.concat rows) -> c < 0 -> table_result rows = Fail FAssert.
Proof.
  intros Hin Hc. unfold table_result. destruct (List.concat rows) as [|a l] eqn:El; [destruct Hin|]. cbn [max_elem bind].
  set (ix := a :: l) in *. unfold sp_make.
  destruct (Z.leb_spec 0 (zlen (0 :: row_ends 0 rows) - 1)) as [_|Hn]; [|rewrite zlen_cons in Hn; pose proof (zlen_nonneg (row_ends 0 rows)); lia]. cbn [assert_ bind].
  destruct (0 <=? fold_left Z.max l a + 1); [|reflexivity]. cbn [assert_ bind].
  assert (E1 : (zlen (0 :: row_ends 0 rows) =? zlen (0 :: row_ends 0 rows) - 1 + 1) = true) by lia. rewrite E1. rewrite zlen_map, Z.eqb_refl. cbn [assert_ bind].
  change (get (0 :: row_ends 0 rows) 0) with (Ok 0). cbn [bind]. change (0 =? 0) with true. cbn [assert_ bind].
  assert (E2 : (0 <? zlen ix) = true) by (unfold ix; rewrite zlen_cons; pose proof (zlen_nonneg l); lia). rewrite E2. unfold ix at 1 2. cbn [max_elem min_elem bind].
  destruct (fold_left Z.max l a <? fold_left Z.max l a + 1); [|reflexivity]. cbn [assert_ bind].
  assert (G : forall (l : list Z) a, (forall x, x = a \/ In x l -> fold_left Z.min l a <= x)).
  { clear. induction l as [|b l IH]; intros a x Hx; cbn [fold_left]; [destruct Hx as [->|[]]; lia|]. destruct Hx as [->|[->|Hx]].
    - specialize (IH (Z.min a b) (Z.min a b) (or_introl eq_refl)). lia.
    - specialize (IH (Z.min a x) (Z.min a x) (or_introl eq_refl)). lia.
    - apply IH. right. exact Hx. }
  specialize (G l a c ltac:(destruct Hin as [->|Hin]; [left; reflexivity|right; exact Hin])). destruct (Z.leb_spec 0 (fold_left Z.min l a)); [lia|reflexivity].
Qed.

(** ReadTable on any layout. *)
Lemma read_table_any rows file : table_file rows file -> List.concat rows <> [] -> (forall c, In c (List.concat rows) -> 0 <= c) ->
  exists A : csr, read_table file = Ok A /\ csr_valid A /\ c_rows A = zlen rows /\ c_cols A = col_bound (List.concat rows) /\ entries A = table_entries rows.
Proof.
  intros Hf Hne Hpos. destruct (table_result_ok rows Hne Hpos) as (A & E & H). exists A. split; [|exact H]. rewrite <- E.
  unfold read_table. rewrite (read_table_rows rows file Hf) by (unfold fuel_of; cbn [i_rest]; lia). reflexivity.
Qed.
(** A table without any index dereferences the end iterator. *)
Lemma read_table_empty rows file : table_file rows file -> List.concat rows = [] -> read_table (S := S) file = Fail FUB.
Proof.
  intros Hf He. unfold read_table. rewrite (read_table_rows rows file Hf) by (unfold fuel_of; cbn [i_rest]; lia). cbn [bind app]. rewrite He. reflexivity.
Qed.
(** ReadTable on any file. *)
Lemma read_table_records file : read_table (S := S) file = table_result (map (records (extract_ok scan_int)) (records getline file)).
Proof.
  unfold read_table. rewrite while_records by apply getline_consumes.
  assert (G : forall lines ip ix, foldM (fun st line => let (ip, ix) := (st : list Z * list Z) in ix <- read_line_ints line ix ;; Ok (ip ++ [zlen ix], ix)) lines (ip, ix) =
    Ok (ip ++ row_ends (zlen ix) (map (records (extract_ok scan_int)) lines), ix ++ List.concat (map (records (extract_ok scan_int)) lines))).
  { induction lines as [|line lines IH]; intros ip ix; cbn [foldM map row_ends List.concat]; [now rewrite !app_nil_r|].
    unfold read_line_ints. rewrite while_records by apply extract_ok_consumes, scan_int_consumes. rewrite foldM_push. cbn [bind].
    rewrite IH, zlen_app, <- !app_assoc. reflexivity. }
  rewrite G. reflexivity.
Qed.

(** The lines of a table. *)
Fixpoint join (l : list Z) : list byte :=
  match l with [] => [] | [c] => fmt_int c | c :: l' => fmt_int c ++ [SP] ++ join l' end.
Lemma join_file l : Forall fits_int l -> forall w, white w -> file_of int_text l (w ++ join l).
Proof.
  induction l as [|c l IH]; intros Hl w Hw.
  - cbn. rewrite app_nil_r. constructor. exact Hw.
  - destruct l as [|d l].
    + cbn [join]. rewrite <- (app_nil_r (fmt_int c)). apply file_rec; [exact Hw|split; [exact (Forall_inv Hl)|reflexivity]|exact I|constructor; constructor].
    + change (join (c :: d :: l)) with (fmt_int c ++ [SP] ++ join (d :: l)). apply file_rec; [exact Hw|split; [exact (Forall_inv Hl)|reflexivity]|reflexivity|].
      apply IH; [exact (Forall_inv_tail Hl)|repeat constructor].
Qed.
Lemma join_no_nl l : ~ In NL (join l).
Proof.
  induction l as [|c l IH]; [exact (fun H => H)|]. destruct l as [|d l]; [apply fmt_int_no_nl|].
  change (join (c :: d :: l)) with (fmt_int c ++ [SP] ++ join (d :: l)). intros H. apply in_app_or in H. destruct H as [H|H]; [exact (fmt_int_no_nl _ H)|].
  destruct H as [H|H]; [discriminate|]. exact (IH H).
Qed.

Definition row_cols (A : csr) (i : Z) : list Z := map (idx A) (zrange (ptr A i) (ptr A (i + 1))).

Lemma write_row (A : csr) b e out : 0 <= b -> e <= zlen (c_idx A) ->
  for_ b e out (fun j out => c <- get (c_idx A) j ;; Ok (out ++ fmt_int c ++ (if j + 1 =? e then [] else [SP]))) = Ok (out ++ join (map (idx A) (zrange b e))).
Proof.
  intros Hb He. destruct (Z_le_gt_dec e b) as [H|H].
  - rewrite for_empty by lia. rewrite zrange_empty by lia. cbn. now rewrite app_nil_r.
  - remember (Z.to_nat (e - b)) as n eqn:En. revert b out Hb H En. induction n as [|n IH]; intros b out Hb H En; [lia|].
    rewrite for_S by lia. rewrite (get_ok 0) by lia. cbn [bind]. fold (idx A b). rewrite (zrange_cons b e) by lia. cbn [map].
    destruct (Z.eqb_spec (b + 1) e) as [E|E].
    + rewrite for_empty by lia. rewrite zrange_empty by lia. cbn [map join]. now rewrite app_nil_r.
    + rewrite IH by lia. rewrite (zrange_cons (b + 1) e) by lia. cbn [map].
      change (join (idx A b :: idx A (b + 1) :: map (idx A) (zrange (b + 1 + 1) e))) with (fmt_int (idx A b) ++ [SP] ++ join (idx A (b + 1) :: map (idx A) (zrange (b + 1 + 1) e))).
      rewrite <- !app_assoc. reflexivity.
Qed.
Lemma fold_left_out {X} (g : X -> list byte) l : forall out, fold_left (fun out i => out ++ g i) l out = out ++ flat_map g l.
Proof. induction l as [|i l IH]; intros out; cbn [fold_left flat_map]; [now rewrite app_nil_r|]. now rewrite IH, <- app_assoc. Qed.
Lemma write_table_all (A : csr) : csr_valid A -> write_table A = Ok (flat_map (fun i => join (row_cols A i) ++ [NL]) (zrange 0 (c_rows A))).
Proof.
  intros V. unfold write_table. unfold for_ at 1. rewrite (foldM_pure_in _ (fun out i => out ++ join (row_cols A i) ++ [NL])).
  - rewrite (fold_left_out (fun i => join (row_cols A i) ++ [NL])). reflexivity.
  - intros out i Hi. apply In_zrange in Hi. rewrite !get_ptr by (auto; lia). cbn [bind]. pose proof (ptr_bounds A i V ltac:(lia)).
    pose proof (ptr_bounds A (i + 1) V ltac:(lia)). rewrite write_row by (try lia; rewrite (cv_len V); fold (nnz A); lia). cbn [bind]. unfold row_cols. rewrite <- app_assoc. reflexivity.
Qed.

Lemma table_written (A : csr) rows : Forall (Forall fits_int) rows -> table_file rows (flat_map (fun r => join r ++ [NL]) rows).
Proof.
  induction 1 as [|r rows Hr _ IH]; cbn [flat_map]; [constructor|]. rewrite <- app_assoc. cbn [app]. constructor; [|apply join_no_nl|exact IH].
  apply (join_file r Hr []). constructor.
Qed.

Lemma concat_row_cols (A : csr) : csr_valid A -> List.concat (map (row_cols A) (zrange 0 (c_rows A))) = c_idx A.
Proof.
  intros V. pose proof (csr_eta A V) as E. apply (f_equal c_idx) in E. rewrite E. unfold csr_of_rows. cbn [c_idx].
  unfold cat. rewrite <- flat_map_concat_map, map_flat_map. apply flat_map_ext_in. intros i _. unfold row_cols, row_of. now rewrite map_map.
Qed.

Lemma table_round_trip (A : csr) : csr_valid A -> int_sized A -> 0 < nnz A ->
  exists f B, write_table A = Ok f /\ read_table (S := S) f = Ok B /\ csr_valid B /\ c_rows B = c_rows A /\ c_cols B = col_bound (c_idx A) /\
    c_ptr B = c_ptr A /\ c_idx B = c_idx A /\ c_val B = map (fun _ => s1) (c_val A).
Proof.
  intros V Hz Hn. pose proof (cv_rows V) as Hr. set (rows := map (row_cols A) (zrange 0 (c_rows A))).
  assert (Er : zlen rows = c_rows A) by (unfold rows; rewrite zlen_map, zlen_zrange by lia; lia).
  assert (Hw : write_table A = Ok (flat_map (fun r => join r ++ [NL]) rows)).
  { rewrite write_table_all by exact V. unfold rows. rewrite flat_map_map. reflexivity. }
  assert (Hc : List.concat rows = c_idx A) by apply (concat_row_cols A V).
  assert (Hf : table_file rows (flat_map (fun r => join r ++ [NL]) rows)).
  { apply (table_written A). unfold rows. rewrite Forall_map, Forall_forall. intros i Hi. rewrite Forall_forall. intros c Hc'. apply (idx_fits A c V Hz).
    rewrite <- Hc. apply in_concat. exists (row_cols A i). split; [|exact Hc']. unfold rows. apply in_map, Hi. }
  destruct (read_table_any rows _ Hf) as (B & EB & VB & Br & Bc & Be).
  - rewrite Hc. intros E. unfold nnz in Hn. rewrite <- (cv_len V), E, zlen_nil in Hn. lia.
  - rewrite Hc. intros c Hi. destruct (In_zn 0 _ _ Hi) as (k & Hk & <-). apply (cv_idx V k Hk).
  - exists (flat_map (fun r => join r ++ [NL]) rows), B. split; [exact Hw|]. split; [exact EB|]. split; [exact VB|]. split; [congruence|]. split; [congruence|].
    assert (Eq : sp_make (S := S) (0 :: row_ends 0 rows) (List.concat rows) (map (fun _ => s1) (List.concat rows)) (zlen rows) (c_cols B) = Ok B).
    { revert EB. unfold read_table. rewrite (read_table_rows rows _ Hf) by (unfold fuel_of; cbn [i_rest]; lia). cbn [bind app]. rewrite zlen_nil.
      intros H. apply bind_Ok in H. destruct H as (m & Em & H). pose proof (sp_make_inv _ _ _ _ _ _ H) as (EB & _). rewrite <- H.
      replace (c_cols B) with (m + 1) by (rewrite EB; reflexivity). f_equal.
      assert (L : forall n l, zlen (row_ends n l) = zlen l) by (intros n l; revert n; induction l as [|a l IH]; intros n; [reflexivity|]; cbn [row_ends]; rewrite !zlen_cons, IH; reflexivity).
      rewrite zlen_cons, L. lia. }
    apply sp_make_inv in Eq. destruct Eq as (EB' & _). rewrite EB'. cbn [c_ptr c_idx c_val]. rewrite Hc. split; [|split; [reflexivity|]].
    + destruct (off_rows rows (fun i => map (fun c => (c, s1)) (zn [] rows i)) ltac:(reflexivity)) as (O1 & _ & _). rewrite <- O1, Er.
      transitivity (c_ptr (csr_of_rows (c_rows A) (c_cols A) (row_of A))); [|f_equal; symmetry; apply csr_eta, V]. cbn [c_ptr csr_of_rows]. apply map_ext_in. intros i Hi. apply In_zrange in Hi. unfold off, cat.
      assert (G : forall l, (forall k, In k l -> 0 <= k < c_rows A) -> zlen (flat_map (fun i => map (fun c => (c, s1 : T)) (zn [] rows i)) l) = zlen (flat_map (row_of A) l)).
      { induction l as [|k l IH]; intros Hl; cbn [flat_map]; [reflexivity|]. rewrite !zlen_app, IH by (intros; apply Hl; right; assumption). f_equal.
        unfold rows, row_of. rewrite zlen_map. rewrite (zn_map_zrange [] (row_cols A)) by (specialize (Hl k (or_introl eq_refl)); lia). unfold row_cols. rewrite !zlen_map. reflexivity. }
      apply G. intros k Hk. apply In_zrange in Hk. lia.
    + pose proof (cv_len V) as El. clear -El. unfold zlen in El. revert El. generalize (c_val A). induction (c_idx A) as [|a l IH]; intros [|v l']; cbn; intros H; try lia; [reflexivity|]. f_equal. apply IH. lia.
Qed.

End ParserMore.
