(** Proofs about printed text. *)

From Coq Require Import ZArith List Bool Lia String SpecFloat.
From Verif Require Import Base Scalar Spec LoopFacts Text ParserSpec TextProofs Parser Double DoubleSpec DoubleProofs DoubleText DoubleMore Dense DenseFacts Sparse CsrFacts Coo Lil LilSpec Block BlockSpec Par Print PrintSpec.
Import ListNotations.
Open Scope list_scope.
Open Scope Z_scope.

(** ** Splitting texts *)

Definition starts (q : byte -> bool) (x : list byte) : Prop := match x with [] => True | b :: _ => q b = false end.

Lemma split_eq q t u x y : Forall (fun b => q b = true) t -> Forall (fun b => q b = true) u -> starts q x -> starts q y ->
  t ++ x = u ++ y -> t = u /\ x = y.
Proof. intros Ht Hu Hx Hy E. pose proof (span_all q t x Ht Hx) as E1. rewrite E, (span_all q u y Hu Hy) in E1. now injection E1 as -> ->. Qed.

Definition int_char (b : byte) : bool := is_digit b || (b =? MINUS).

Lemma fmt_int_chars n : Forall (fun b => int_char b = true) (fmt_int n).
Proof.
  destruct (fmt_int_form n) as (neg & ds & -> & H & _). apply Forall_app. split; [destruct neg; repeat constructor|].
  eapply Forall_impl; [|exact H]. intros b Hb. unfold int_char. now rewrite Hb.
Qed.

Lemma fmt_int_inj a b : fmt_int a = fmt_int b -> a = b.
Proof.
  destruct (fmt_int_form a) as (na & da & -> & Ha & Ea & <-), (fmt_int_form b) as (nb & db & -> & Hb & Eb & <-). intros E.
  assert (Hd : forall ds, Forall (fun b => is_digit b = true) ds -> ds <> [] -> forall l, ds <> MINUS :: l).
  { intros [|d ds] H Hn l; [congruence|]. intros [= -> _]. apply Forall_inv in H. discriminate. }
  destruct na, nb; cbn [app] in E.
  - now injection E as ->.
  - exfalso. now apply (Hd db Hb Eb da).
  - exfalso. now apply (Hd da Ha Ea db).
  - now subst.
Qed.

Lemma fmt_int_split a b x y : starts int_char x -> starts int_char y -> fmt_int a ++ x = fmt_int b ++ y -> a = b /\ x = y.
Proof. intros Hx Hy E. apply (split_eq int_char) in E; auto using fmt_int_chars. destruct E as (E & ->). split; [now apply fmt_int_inj|reflexivity]. Qed.

Lemma word_split t u x y : word t -> word u -> ends x -> ends y -> t ++ x = u ++ y -> t = u /\ x = y.
Proof.
  intros (_ & Ht) (_ & Hu) Hx Hy. apply (split_eq (fun b => negb (is_space b))).
  - eapply Forall_impl; [|exact Ht]. cbn. now intros b ->.
  - eapply Forall_impl; [|exact Hu]. cbn. now intros b ->.
  - destruct x; cbn in *; [trivial|now rewrite Hx].
  - destruct y; cbn in *; [trivial|now rewrite Hy].
Qed.

Lemma pads_split j k t u : starts (Z.eqb SP) t -> starts (Z.eqb SP) u -> repeat SP j ++ t = repeat SP k ++ u -> t = u.
Proof.
  intros Ht Hu E. apply (split_eq (Z.eqb SP)) in E; auto; [tauto| |]; apply Forall_forall; intros b Hb; apply repeat_spec in Hb; subst; reflexivity.
Qed.

Lemma word_starts t x : word t -> starts (Z.eqb SP) (t ++ x).
Proof. intros (Hn & H). destruct t as [|b t]; [congruence|]. cbn [app starts]. apply Forall_inv in H. destruct (Z.eqb_spec SP b) as [<-|]; [discriminate|reflexivity]. Qed.

Lemma Ok_inj {X} (a b : X) : Ok a = Ok b -> a = b.
Proof. now intros [= ->]. Qed.

(** ** Reports *)

Section Reports.
Context {S : scalar}.
Notation T := (car S).
Context (C : codec S) (p : Z).

Lemma lines_det w : forall es fs x y, Forall (fun e => worded C p (evalue e)) es -> Forall (fun e => worded C p (evalue e)) fs ->
  flat_map (entry_line C p w) es ++ [NL] ++ x = flat_map (entry_line C p w) fs ++ [NL] ++ y -> map (shown C p) es = map (shown C p) fs /\ x = y.
Proof.
  induction es as [|e es IH]; intros [|f fs] x y He Hf E; cbn [flat_map app] in E.
  - split; [reflexivity|]. now injection E.
  - exfalso. assert (H : NL = 40) by exact (f_equal (hd 0) E). discriminate.
  - exfalso. assert (H : 40 = NL) by exact (f_equal (hd 0) E). discriminate.
  - unfold entry_line in E. rewrite <- !app_assoc in E. apply app_inv_head in E.
    apply fmt_int_split in E; [|reflexivity|reflexivity]. destruct E as (E1 & E). apply app_inv_head in E.
    apply fmt_int_split in E; [|reflexivity|reflexivity]. destruct E as (E2 & E). apply app_inv_head in E.
    pose proof (Forall_inv He : word (tc_fmt C p (evalue e))) as We. pose proof (Forall_inv Hf : word (tc_fmt C p (evalue f))) as Wf.
    apply pads_split in E; [|now apply word_starts|now apply word_starts].
    apply word_split in E; [|assumption|assumption|reflexivity|reflexivity]. destruct E as (E3 & E).
    injection E as E. apply Forall_inv_tail in He, Hf. destruct (IH fs x y He Hf E) as (E4 & E5).
    split; [|exact E5]. cbn [map]. unfold shown at 1 3. now rewrite E1, E2, E3, E4.
Qed.

Lemma report_det w label es fs x y : Forall (fun e => worded C p (evalue e)) es -> Forall (fun e => worded C p (evalue e)) fs ->
  report C p w label es ++ x = report C p w label fs ++ y -> map (shown C p) es = map (shown C p) fs /\ x = y.
Proof.
  intros He Hf E. unfold report in E. rewrite <- !app_assoc in E. apply app_inv_head in E. apply app_inv_head in E.
  now apply lines_det in E.
Qed.

Lemma fold_append {X} (g : X -> list byte) l s : fold_left (fun out x => out ++ g x) l s = s ++ flat_map g l.
Proof. revert s. induction l as [|a l IH]; intros s; cbn; [now rewrite app_nil_r|]. now rewrite IH, <- app_assoc. Qed.

Lemma sp_print_report (A : csr S) label : csr_valid A -> sp_print C p label A = Ok (report C p 6 label (entries A)).
Proof.
  intros V. unfold sp_print. rewrite for_entries_positions by exact V.
  rewrite (foldM_ext _ (fun out q => Ok (out ++ entry_line C p 6 (entry_at A q)))).
  - rewrite foldM_pure, fold_append. cbn [bind]. unfold report. rewrite entries_positions, <- !app_assoc. do 3 f_equal.
    rewrite flat_map_concat_map, (flat_map_concat_map (entry_line C p 6)), map_map. reflexivity.
  - intros out [i k] Hk. apply position_bounds in Hk; auto. cbn [fst snd]. rewrite get_val, get_idx by (auto; tauto). cbn [bind].
    unfold pad, entry_line. rewrite <- !app_assoc. reflexivity.
Qed.

Lemma entries_value (A : csr S) (P : T -> Prop) : csr_valid A -> Forall P (c_val A) -> Forall (fun e => P (evalue e)) (entries A).
Proof.
  intros V H. rewrite entries_positions. apply Forall_forall. intros e He. apply in_map_iff in He. destruct He as ([i k] & <- & Hk).
  apply position_bounds in Hk; auto. rewrite Forall_forall in H. apply H. unfold entry_at, evalue. cbn [snd].
  unfold val. apply zn_In. unfold nnz in Hk. tauto.
Qed.

Lemma entry_line_0 e : entry_line C p 0 e = txt "(" ++ fmt_int (erow e) ++ txt ", " ++ fmt_int (ecol e) ++ txt ") " ++ tc_fmt C p (evalue e) ++ [NL].
Proof. unfold entry_line. replace (Z.to_nat (0 - zlen (tc_fmt C p (evalue e)))) with 0%nat by (unfold zlen; lia). reflexivity. Qed.

Lemma coo_print_report (M : coo S) label : coo_print C p label M = report C p 0 label (o_entries M).
Proof. unfold coo_print, report. do 3 f_equal. apply flat_map_ext. intros e. symmetry. apply entry_line_0. Qed.

Lemma flat_map_flat_map {X Y V} (f : X -> list Y) (g : Y -> list V) l : flat_map g (flat_map f l) = flat_map (fun x => flat_map g (f x)) l.
Proof. induction l as [|a l IH]; cbn [flat_map]; [reflexivity|]. now rewrite flat_map_app, IH. Qed.

Lemma lil_print_report (M : lil S) label : lil_print C p label M = Ok (report C p 0 label (lil_entries M)).
Proof.
  unfold lil_print, for_. rewrite (foldM_ext _ (fun out i => Ok (out ++ flat_map (entry_line C p 0) (map (fun n => (i, fst n, snd n)) (zn [] (l_lists M) i))))).
  - rewrite foldM_pure, fold_append. cbn [bind]. unfold report, lil_entries. rewrite <- !app_assoc, flat_map_flat_map. reflexivity.
  - intros out i Hi. apply In_zrange in Hi. rewrite (get_ok []) by lia. cbn [bind]. do 2 f_equal. rewrite (flat_map_concat_map (entry_line C p 0)), map_map, <- flat_map_concat_map.
    apply flat_map_ext. intros n. symmetry. apply entry_line_0.
Qed.

Lemma v_print_det label u v x y : Forall (worded C p) u -> Forall (worded C p) v -> v_print C p label u ++ x = v_print C p label v ++ y ->
  map (tc_fmt C p) u = map (tc_fmt C p) v /\ x = y.
Proof.
  intros Hu Hv E. unfold v_print in E. rewrite <- !app_assoc in E. apply app_inv_head in E. apply app_inv_head in E.
  revert v Hv E. induction u as [|a u IH]; intros [|b v] Hv E; cbn [flat_map app] in E.
  - split; [reflexivity|]. now injection E.
  - exfalso. apply Forall_inv in Hv. destruct Hv as (Hn & Hw). destruct (tc_fmt C p b) as [|c t]; [congruence|]. apply Forall_inv in Hw. cbn [app] in E. injection E as <- _. discriminate.
  - exfalso. apply Forall_inv in Hu. destruct Hu as (Hn & Hw). destruct (tc_fmt C p a) as [|c t]; [congruence|]. apply Forall_inv in Hw. cbn [app] in E. injection E as -> _. discriminate.
  - rewrite <- !app_assoc in E. pose proof (Forall_inv Hu : word (tc_fmt C p a)). pose proof (Forall_inv Hv : word (tc_fmt C p b)).
    apply word_split in E; [|assumption|assumption|reflexivity|reflexivity]. destruct E as (E1 & E). injection E as E.
    apply Forall_inv_tail in Hu, Hv. destruct (IH Hu v Hv E) as (E2 & E3). split; [|exact E3]. cbn [map]. now rewrite E1, E2.
Qed.

(** ** Block matrices *)

Lemma block_entries_empty : entries (sp_empty (S := S)) = [].
Proof. reflexivity. Qed.

Definition block_label (i j : Z) : list byte := txt "block (" ++ fmt_int i ++ txt "," ++ fmt_int j ++ txt ")".

Lemma block_print rows cols (B : csr S) label : block_ok rows cols B -> sp_print C p label B = Ok (report C p 6 label (entries B)).
Proof. intros [->|(V & _)]; [|now apply sp_print_report]. unfold sp_print, report. rewrite block_entries_empty. match goal with |- context [for_entries ?a ?b ?s ?g] => change (for_entries a b s g) with (Ok s) end. cbn [bind flat_map]. now rewrite <- app_assoc. Qed.

Definition grid_text (m n : Z) (es : Z -> Z -> list (entry S)) : list byte :=
  flat_map (fun i => flat_map (fun j => report C p 6 (block_label i j) (es i j)) (zrange 0 n)) (zrange 0 m).

Lemma bm_print_report (M : bmat S) label : bm_ok M -> bm_print C p label M = Ok (label ++ [NL] ++ grid_text (nblocks (bm_ro M)) (nblocks (bm_co M)) (fun i j => entries (bm_block M i j))).
Proof.
  intros K. unfold bm_print, for_. fold (nblocks (bm_ro M)) (nblocks (bm_co M)).
  rewrite (foldM_ext _ (fun out i => Ok (out ++ flat_map (fun j => report C p 6 (block_label i j) (entries (bm_block M i j))) (zrange 0 (nblocks (bm_co M)))))).
  - rewrite foldM_pure, fold_append, <- app_assoc. reflexivity.
  - intros out i Hi. apply In_zrange in Hi. rewrite (foldM_ext _ (fun out j => Ok (out ++ report C p 6 (block_label i j) (entries (bm_block M i j))))).
    + rewrite foldM_pure, fold_append. reflexivity.
    + intros o j Hj. apply In_zrange in Hj. rewrite (get_ok []) by (rewrite (bk_A M K); lia). cbn [bind].
      rewrite (get_ok sp_empty) by (rewrite (bk_row M K) by lia; lia). cbn [bind]. fold (block_label i j).
      change (zn sp_empty (zn [] (bm_A M) i) j) with (bm_block M i j).
      rewrite (block_print _ _ _ _ (bk_block M K i j ltac:(lia) ltac:(lia))). reflexivity.
Qed.

Lemma seq_det {X} (f g : X -> list byte) (Q : X -> Prop) l : (forall x s t, In x l -> f x ++ s = g x ++ t -> Q x /\ s = t) ->
  forall s t, flat_map f l ++ s = flat_map g l ++ t -> Forall Q l /\ s = t.
Proof.
  induction l as [|a l IH]; intros H s t E; cbn [flat_map app] in E; [now split|]. rewrite <- !app_assoc in E.
  destruct (H a _ _ (or_introl eq_refl) E) as (Qa & E'). destruct (IH (fun x s t Hx => H x s t (or_intror Hx)) s t E') as (Ql & ->). split; [now constructor|reflexivity].
Qed.

Lemma bm_print_det (M N : bmat S) label : bm_ok M -> bm_ok N -> nblocks (bm_ro M) = nblocks (bm_ro N) -> nblocks (bm_co M) = nblocks (bm_co N) ->
  (forall i j, 0 <= i < nblocks (bm_ro M) -> 0 <= j < nblocks (bm_co M) -> Forall (worded C p) (c_val (bm_block M i j)) /\ Forall (worded C p) (c_val (bm_block N i j))) ->
  bm_print C p label M = bm_print C p label N ->
  forall i j, 0 <= i < nblocks (bm_ro M) -> 0 <= j < nblocks (bm_co M) -> map (shown C p) (entries (bm_block M i j)) = map (shown C p) (entries (bm_block N i j)).
Proof.
  intros KM KN Er Ec W E. rewrite !bm_print_report in E by assumption. apply Ok_inj in E. apply (app_inv_head label) in E. apply (app_inv_head [NL]) in E. rewrite <- Er, <- Ec in E.
  apply (f_equal (fun l => l ++ [])) in E. unfold grid_text in E.
  apply (seq_det _ _ (fun i => forall j, 0 <= j < nblocks (bm_co M) -> map (shown C p) (entries (bm_block M i j)) = map (shown C p) (entries (bm_block N i j)))) in E.
  - destruct E as (E & _). rewrite Forall_forall in E. intros i j Hi Hj. apply E; [now apply In_zrange|exact Hj].
  - clear E. intros i s t Hi E. apply In_zrange in Hi.
    apply (seq_det _ _ (fun j => map (shown C p) (entries (bm_block M i j)) = map (shown C p) (entries (bm_block N i j)))) in E.
    + destruct E as (E & Est). split; [|exact Est]. rewrite Forall_forall in E. intros j Hj. apply E. now apply In_zrange.
    + clear E s t. intros j s t Hj E. apply In_zrange in Hj. destruct (W i j Hi Hj) as (W1 & W2).
      assert (V : forall K, bm_ok K -> nblocks (bm_ro M) = nblocks (bm_ro K) -> nblocks (bm_co M) = nblocks (bm_co K) -> Forall (worded C p) (c_val (bm_block K i j)) -> Forall (fun e => worded C p (evalue e)) (entries (bm_block K i j))).
      { intros K HK E1 E2 HW. destruct (bk_block K HK i j ltac:(lia) ltac:(lia)) as [->|(V & _)]; [rewrite block_entries_empty; constructor|now apply entries_value]. }
      apply report_det in E; [exact E| |]; apply V; auto.
Qed.

(** ** Distributed matrices *)

Lemma ints_det : forall l m, flat_map (fun i => fmt_int i ++ [NL]) l ++ [NL] = flat_map (fun i => fmt_int i ++ [NL]) m ++ [NL] -> l = m.
Proof.
  assert (H : forall n, exists b t, fmt_int n = b :: t /\ is_space b = false).
  { intros n. pose proof (fmt_int_head n) as H. destruct (fmt_int n) as [|b t]; [contradiction|]. now exists b, t. }
  induction l as [|a l IH]; intros [|b m] E; cbn [flat_map app] in E.
  - reflexivity.
  - destruct (H b) as (c & t & Ec & Hc). rewrite Ec in E. cbn [app] in E. injection E as <- _. discriminate.
  - destruct (H a) as (c & t & Ec & Hc). rewrite Ec in E. cbn [app] in E. injection E as -> _. discriminate.
  - rewrite <- !app_assoc in E. apply fmt_int_split in E; [|reflexivity|reflexivity]. destruct E as (-> & E). injection E as E. f_equal. now apply IH.
Qed.

Lemma pm_print_det (A B : parmat S) label : csr_valid (pm_diag A) -> csr_valid (pm_offd A) -> csr_valid (pm_diag B) -> csr_valid (pm_offd B) ->
  Forall (worded C p) (c_val (pm_diag A)) -> Forall (worded C p) (c_val (pm_offd A)) -> Forall (worded C p) (c_val (pm_diag B)) -> Forall (worded C p) (c_val (pm_offd B)) ->
  pm_print C p label A = pm_print C p label B ->
  map (shown C p) (entries (pm_diag A)) = map (shown C p) (entries (pm_diag B)) /\
  map (shown C p) (entries (pm_offd A)) = map (shown C p) (entries (pm_offd B)) /\ pm_map A = pm_map B.
Proof.
  intros V1 V2 V3 V4 W1 W2 W3 W4 E. unfold pm_print in E. rewrite !sp_print_report in E by assumption. cbn [bind] in E. apply Ok_inj in E.
  apply (app_inv_head label) in E. apply (app_inv_head [NL]) in E. apply report_det in E; try (now apply entries_value). destruct E as (E1 & E).
  apply report_det in E; try (now apply entries_value). destruct E as (E2 & E).
  split; [exact E1|]. split; [exact E2|]. apply (app_inv_head (txt "ColMap:")) in E. apply (app_inv_head [NL]) in E. now apply ints_det.
Qed.

Lemma pm_print_report (A : parmat S) label : csr_valid (pm_diag A) -> csr_valid (pm_offd A) ->
  pm_print C p label A = Ok (label ++ [NL] ++ report C p 6 (txt "Diag:") (entries (pm_diag A)) ++ report C p 6 (txt "Offd:") (entries (pm_offd A)) ++
    txt "ColMap:" ++ [NL] ++ flat_map (fun i => fmt_int i ++ [NL]) (pm_map A) ++ [NL]).
Proof. intros V1 V2. unfold pm_print. rewrite !sp_print_report by assumption. reflexivity. Qed.

(** What survives reading is determined by its text. *)
Lemma shown_survives es fs : Forall (fun e => survives C p (evalue e)) es -> Forall (fun e => survives C p (evalue e)) fs ->
  map (shown C p) es = map (shown C p) fs -> es = fs.
Proof.
  revert fs. induction es as [|e es IH]; intros [|f fs] He Hf E; try discriminate; [reflexivity|]. cbn [map] in E. injection E as E1 E2 E3 E. f_equal.
  - apply Forall_inv in He, Hf. destruct He as (_ & He), Hf as (_ & Hf). specialize (He [] I). specialize (Hf [] I). rewrite E3, Hf in He. injection He as He.
    destruct e as [[i j] v], f as [[i' j'] v']. unfold erow, ecol, evalue in *. cbn [fst snd] in *. now subst.
  - apply IH; auto; eapply Forall_inv_tail; eassumption.
Qed.

End Reports.
