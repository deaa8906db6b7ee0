(** Lemmas in the form of the property theorems about the parallel module. *)

From Coq Require Import ZArith List Bool Lia Permutation Ring.
From Verif Require Import Base Scalar Spec Dense Sparse SumFacts LoopFacts CsrFacts Rows SparseProofs SparseMore SortProofs HistoryProofs
  Coo CooSpec CooProofs CooMore Vec VecSpec Par ParSpec ParProofs ParAddProofs ParSplitProofs ParVecProofs ParOpProofs.
Import ListNotations.
Open Scope Z_scope.

(* ---------------------------------------------------------------- offsets *)

Lemma offset_list (sizes : list (list Z)) i k : 0 <= i -> 0 <= k <= zlen sizes ->
  zsum 0 k (fun q => zn 0 (zn [] sizes q) i) = first_of (map (fun l => zn 0 l i) sizes) k.
Proof.
  intros Hi Hk. unfold first_of. apply zsum_ext. intros q Hq. symmetry. rewrite (zn_map [] 0) by lia. reflexivity.
Qed.

Lemma offsets_tile (sizes : list (list Z)) n : 0 < zlen sizes -> (forall r, 0 <= r < zlen sizes -> zlen (zn [] sizes r) = n) ->
  exists offs, generate_offsets sizes = Ok offs /\ zlen offs = zlen sizes /\
    forall r, 0 <= r < zlen sizes -> zlen (zn [] offs r) = n /\
    forall i, 0 <= i < n ->
      let local := map (fun l => zn 0 l i) sizes in
      zn [] (zn [] offs r) i = [first_of local r; first_of local (r + 1); first_of local (zlen sizes)].
Proof.
  intros Hp Hn. assert (0 <= n) by (rewrite <- (Hn 0) by lia; apply zlen_nonneg). eexists. split; [exact (generate_offsets_ok sizes n Hp Hn)|]. split; [rewrite zlen_map_zrange; lia|].
  intros r Hr. rewrite zn_map_zrange by exact Hr. split; [rewrite zlen_map_zrange; lia|]. intros i Hi local. rewrite zn_map_zrange by exact Hi.
  unfold offset_of. now rewrite !offset_list by lia.
Qed.

Lemma first_of_0 sizes : first_of sizes 0 = 0.
Proof. apply zsum_empty. Qed.

Lemma first_of_S sizes r : 0 <= r -> first_of sizes (r + 1) = first_of sizes r + zn 0 sizes r.
Proof. intros H. unfold first_of. now apply zsum_S. Qed.

Lemma owner sizes g : (forall r, 0 <= r < zlen sizes -> 0 <= zn 0 sizes r) -> 0 <= g < first_of sizes (zlen sizes) ->
  exists! r, 0 <= r < zlen sizes /\ first_of sizes r <= g < first_of sizes (r + 1).
Proof.
  intros Hs Hg. destruct (owner_exists sizes g Hs Hg) as (r & Hr & H). exists r. split; [auto|]. intros q (Hq & H'). now apply (owner_unique sizes g r q).
Qed.

(* ---------------------------------------------------------------- column maps *)

Section Map.
Context {S : scalar}.

Lemma sort_column_map_spec srt (cm : list Z) (M : coo S) : sorts srt -> coo_ok M -> o_set M = true -> o_cols M = zlen cm ->
  exists cm' M', sort_column_map srt cm M = Ok (cm', M') /\
    Permutation cm cm' /\ (forall i j, 0 <= i < j -> j < zlen cm' -> zn 0 cm' i <= zn 0 cm' j) /\
    o_rows M' = o_rows M /\ o_cols M' = o_cols M /\ o_set M' = true /\ coo_ok M' /\
    map (fun e => (erow e, zn 0 cm' (ecol e), evalue e)) (o_entries M') = map (fun e => (erow e, zn 0 cm (ecol e), evalue e)) (o_entries M).
Proof.
  intros Hs HM Hset Hc. destruct (sort_column_map_ok srt cm M Hs HM Hset Hc) as (cm' & ci & E & P & So & (L & _ & Rg) & V). rewrite Forall_forall in Rg.
  exists cm'. eexists. split; [exact E|]. split; [exact P|]. split; [exact So|]. cbn [o_rows o_cols o_set o_entries]. do 3 (split; [reflexivity|]).
  destruct HM as (H1 & H2 & H3). rewrite Hset in H3. unfold in_shape in H3. rewrite Forall_forall in H3. split.
  - refine (conj H1 (conj H2 _)). cbn [o_set o_rows o_cols o_entries]. unfold in_shape. rewrite Forall_map, Forall_forall. intros e He. cbn [erow ecol fst snd]. specialize (H3 e He).
    split; [apply H3|]. rewrite Hc. apply Rg, zn_In. lia.
  - rewrite map_map. apply map_ext_in. intros e He. cbn [erow ecol evalue fst snd]. rewrite V; [reflexivity|]. specialize (H3 e He). lia.
Qed.

End Map.

(* ---------------------------------------------------------------- ParAdd *)

Section Add.
Context {S : scalar}.
Notation T := (car S).
Hypothesis E : eqb_laws S.
Hypothesis R : ring_laws S.
Let Rth : ring_theory (@s0 S) s1 sadd smul ssub sopp (@eq (car S)) := R.
Add Ring ParLinksRing : Rth.

Lemma scaled_but_first_cols (P : list (T * entry S)) g : existsb (fun x => ecol x =? g) (scaled_but_first P) = existsb (fun ce => ecol (snd ce) =? g) P.
Proof.
  induction P as [|[c e] P IH] using rev_ind; [reflexivity|]. rewrite scaled_but_first_snoc, !existsb_app, IH. reflexivity.
Qed.

(** If the coefficient of the first entry of each column does not change it, nothing is lost. *)
Lemma scaled_but_first_ok (L : list (T * entry S)) :
  (forall P c e Q, L = P ++ (c, e) :: Q -> (forall ce, In ce P -> ecol (snd ce) <> ecol e) -> smul c (evalue e) = evalue e) ->
  scaled_but_first L = scaled L.
Proof.
  induction L as [|[c e] L IH] using rev_ind; intros H; [reflexivity|]. rewrite scaled_but_first_snoc. unfold scaled in *. rewrite map_app. cbn [map fst snd]. rewrite IH.
  - f_equal. f_equal. f_equal. rewrite <- IH, scaled_but_first_cols.
    2:{ intros P c' e' Q Q1. apply (H P c' e' (Q ++ [(c, e)])). rewrite Q1, <- app_assoc. reflexivity. }
    destruct (existsb (fun ce => ecol (snd ce) =? ecol e) L) eqn:Ex; [reflexivity|]. symmetry. apply (H L c e []); [reflexivity|].
    intros ce I Q. rewrite <- not_true_iff_false, existsb_exists in Ex. apply Ex. exists ce. split; [exact I|]. now apply Z.eqb_eq.
  - intros P c' e' Q Q1. apply (H P c' e' (Q ++ [(c, e)])). rewrite Q1, <- app_assoc. reflexivity.
Qed.

Lemma mat_of_scaled c (l : list (entry S)) i j : mat_of (scaled (with_coef c l)) i j = smul c (mat_of l i j).
Proof.
  unfold scaled, with_coef. rewrite map_map. cbn [fst snd]. rewrite (mat_of_map_value R (fun _ _ v => smul c v)); [reflexivity|ring|intros; ring].
Qed.

Lemma scaled_app (a b : list (T * entry S)) : scaled (a ++ b) = scaled a ++ scaled b.
Proof. apply map_app. Qed.

Variable srt : sorter.
Hypothesis Hsrt : sorts srt.
Variable reorder : csr S -> csr S.
Hypothesis Hre : reorders reorder.

(** The condition under which ParAdd is right. *)
Lemma par_add_marker_sum alpha (A : parmat S) beta (B : parmat S) marker :
  pm_valid A -> pm_valid B -> same_layout A B -> pm_gcols A <= zlen marker ->
  (alpha = s1 \/ entries (pm_offd A) = []) ->
  (beta = s1 \/ forall g, offd_cols B g -> offd_cols A g) ->
  exists C marker', par_add_marker srt reorder alpha A beta B marker = Ok (C, marker') /\ pm_valid C /\ same_layout A C /\ marker' = map (fun _ => -1) marker /\
    forall i j, pm_mat C i j = sadd (smul alpha (pm_mat A i j)) (smul beta (pm_mat B i j)).
Proof.
  intros VA VB (Lr & Lc) HN Ha Hb. destruct (par_add_marker_ok E srt Hsrt reorder Hre R alpha A beta B marker VA VB (conj Lr Lc) HN) as (C & m & EC & VC & LC & Em & H).
  exists C, m. split; [exact EC|]. split; [exact VC|]. split; [exact LC|]. split; [exact Em|]. intros i j. rewrite H.
  rewrite scaled_but_first_ok.
  - rewrite !(pm_mat_split R). rewrite Lr, Lc. rewrite mat_of_shift, mat_of_shift_rows, !scaled_app, !(mat_of_app R), !mat_of_scaled. unfold csr_mat. ring.
  - intros P c e Q HL Hfirst.
    assert (G : forall l1 l2 : list (T * entry S), l1 ++ l2 = P ++ (c, e) :: Q -> (In (c, e) l1) \/ (In (c, e) l2 /\ forall ce, In ce l1 -> In ce P)).
    { clear. intros l1. revert P. induction l1 as [|x l1 IH]; intros P l2 HL; cbn in HL.
      - right. split; [rewrite HL; apply in_or_app; right; now left|intros ce []].
      - destruct P as [|y P]; cbn in HL; injection HL as -> HL.
        + left. now left.
        + destruct (IH P l2 HL) as [I|(I1 & I2)]; [left; now right|]. right. split; [exact I1|]. intros ce [<-|I]; [now left|right; auto]. }
    destruct (G _ _ HL) as [I|(I & Sub)]; unfold with_coef in I; apply in_map_iff in I; destruct I as (x & Qx & I); injection Qx as <- <-.
    + destruct Ha as [->|En]; [ring|]. unfold offd_entries in I. rewrite En in I. destruct I.
    + destruct Hb as [->|Hsub]; [ring|]. exfalso. unfold offd_entries in I. apply in_map_iff in I. destruct I as (y & Qy & I). rewrite <- Qy in Hfirst.
      destruct (Hsub (zn 0 (pm_map B) (ecol y))) as (z & Iz & Ez); [now exists y|].
      apply (Hfirst (alpha, (erow z, zn 0 (pm_map A) (ecol z), evalue z))).
      * apply Sub. unfold with_coef, offd_entries. rewrite map_map. now apply (in_map (fun e => (alpha, (erow e, zn 0 (pm_map A) (ecol e), evalue e)))).
      * cbn [snd ecol fst]. exact Ez.
Qed.

Lemma par_add_of_marker alpha (A : parmat S) beta (B : parmat S) C marker : 0 <= pm_gcols A ->
  par_add_marker srt reorder alpha A beta B (repeat (-1) (Z.to_nat (pm_gcols A))) = Ok (C, marker) -> par_add srt reorder alpha A beta B = Ok C.
Proof. intros Hg Q. unfold par_add. rewrite vec_ok by exact Hg. cbn [bind]. rewrite Q. reflexivity. Qed.

Lemma pm_gcols_nonneg (A : parmat S) : pm_valid A -> 0 <= pm_gcols A.
Proof. intros V. pose proof (pv_crange A V). unfold pm_gcols. lia. Qed.

Lemma par_add_sum alpha (A : parmat S) beta (B : parmat S) :
  pm_valid A -> pm_valid B -> same_layout A B ->
  (alpha = s1 \/ entries (pm_offd A) = []) -> (beta = s1 \/ forall g, offd_cols B g -> offd_cols A g) ->
  exists C, par_add srt reorder alpha A beta B = Ok C /\ pm_valid C /\ same_layout A C /\
    forall i j, pm_mat C i j = sadd (smul alpha (pm_mat A i j)) (smul beta (pm_mat B i j)).
Proof.
  intros VA VB L Ha Hb. pose proof (pm_gcols_nonneg A VA).
  destruct (par_add_marker_sum alpha A beta B (repeat (-1) (Z.to_nat (pm_gcols A))) VA VB L) as (C & m & Q & VC & LC & _ & H'); auto.
  - rewrite zlen_repeat. lia.
  - exists C. split; [now apply (par_add_of_marker alpha A beta B C m)|]. auto.
Qed.

Lemma par_add1_sum (A B : parmat S) : pm_valid A -> pm_valid B -> same_layout A B ->
  exists C, par_add1 srt reorder A B = Ok C /\ pm_valid C /\ same_layout A C /\ forall i j, pm_mat C i j = sadd (pm_mat A i j) (pm_mat B i j).
Proof.
  intros VA VB L. destruct (par_add_sum s1 A s1 B VA VB L) as (C & Q & VC & LC & H); auto. exists C. split; [exact Q|]. split; [exact VC|]. split; [exact LC|].
  intros i j. rewrite H. ring.
Qed.

Lemma par_add_exact alpha (A : parmat S) beta (B : parmat S) :
  pm_valid A -> pm_valid B -> same_layout A B ->
  exists C, par_add srt reorder alpha A beta B = Ok C /\ pm_valid C /\ same_layout A C /\
    forall i j, pm_mat C i j =
      sadd (sadd (smul alpha (csr_mat (pm_diag A) (i - row0 A) (j - col0 A))) (smul beta (csr_mat (pm_diag B) (i - row0 A) (j - col0 A))))
           (mat_of (scaled_but_first (with_coef alpha (offd_entries A) ++ with_coef beta (offd_entries B))) (i - row0 A) j).
Proof.
  intros VA VB L. pose proof (pm_gcols_nonneg A VA).
  destruct (par_add_marker_ok E srt Hsrt reorder Hre R alpha A beta B (repeat (-1) (Z.to_nat (pm_gcols A))) VA VB L) as (C & m & Q & VC & LC & _ & H').
  - rewrite zlen_repeat. lia.
  - exists C. split; [now apply (par_add_of_marker alpha A beta B C m)|]. split; [exact VC|]. split; [exact LC|].
    intros i j. rewrite H'. rewrite mat_of_shift, mat_of_shift_rows, scaled_app, (mat_of_app R), !mat_of_scaled. reflexivity.
Qed.

Lemma par_sub_sum alpha (A : parmat S) beta (B : parmat S) :
  pm_valid A -> pm_valid B -> same_layout A B ->
  (alpha = s1 \/ entries (pm_offd A) = []) -> (forall g, offd_cols B g -> offd_cols A g) ->
  exists C, par_sub srt reorder alpha A beta B = Ok C /\ pm_valid C /\ same_layout A C /\
    forall i j, pm_mat C i j = ssub (smul alpha (pm_mat A i j)) (smul beta (pm_mat B i j)).
Proof.
  intros VA VB L Ha Hb. destruct (par_add_sum alpha A (sopp beta) B VA VB L Ha (or_intror Hb)) as (C & Q & VC & LC & H). exists C. split; [exact Q|]. split; [exact VC|]. split; [exact LC|].
  intros i j. rewrite H. ring.
Qed.

Lemma par_sub1_sum (A B : parmat S) : pm_valid A -> pm_valid B -> same_layout A B -> (forall g, offd_cols B g -> offd_cols A g) ->
  exists C, par_sub1 srt reorder A B = Ok C /\ pm_valid C /\ same_layout A C /\ forall i j, pm_mat C i j = ssub (pm_mat A i j) (pm_mat B i j).
Proof.
  intros VA VB L Hb. destruct (par_add_sum s1 A (sopp s1) B VA VB L (or_introl eq_refl) (or_intror Hb)) as (C & Q & VC & LC & H). exists C. split; [exact Q|]. split; [exact VC|].
  split; [exact LC|]. intros i j. rewrite H. ring.
Qed.

Lemma par_sub1_exact (A B : parmat S) : pm_valid A -> pm_valid B -> same_layout A B ->
  exists C, par_sub1 srt reorder A B = Ok C /\ pm_valid C /\ same_layout A C /\
    forall i j, pm_mat C i j =
      sadd (ssub (csr_mat (pm_diag A) (i - row0 A) (j - col0 A)) (csr_mat (pm_diag B) (i - row0 A) (j - col0 A)))
           (mat_of (scaled_but_first (with_coef s1 (offd_entries A) ++ with_coef (sopp s1) (offd_entries B))) (i - row0 A) j).
Proof.
  intros VA VB L. destruct (par_add_exact s1 A (sopp s1) B VA VB L) as (C & Q & VC & LC & H). exists C. split; [exact Q|]. split; [exact VC|].
  split; [exact LC|]. intros i j. rewrite H. f_equal. ring.
Qed.

(** All ranks: the sum of the global matrices. *)
Lemma par_add1_world (As Bs : list (parmat S)) : zlen Bs = zlen As ->
  (forall r A B, get As r = Ok A -> get Bs r = Ok B -> pm_valid A /\ pm_valid B /\ same_layout A B) ->
  exists Cs, ranks (zlen As) (fun r => A <- get As r ;; B <- get Bs r ;; par_add1 srt reorder A B) = Ok Cs /\ zlen Cs = zlen As /\ Forall pm_valid Cs /\
    forall i j, world_mat Cs i j = sadd (world_mat As i j) (world_mat Bs i j).
Proof.
  intros L H. pose proof (zlen_nonneg As).
  match goal with |- context [ranks _ ?f] => destruct (ranks_ex pm_none (fun r C => pm_valid C /\ forall i j, pm_mat C i j = sadd (pm_mat (zn pm_none As r) i j) (pm_mat (zn pm_none Bs r) i j)) (zlen As) f) as (Cs & EC & LC & HC) end.
  - lia.
  - intros r Hr. rewrite (get_ok pm_none) by lia. rewrite (get_ok pm_none) by lia. cbn [bind].
    destruct (H r (zn pm_none As r) (zn pm_none Bs r)) as (V1 & V2 & LY); [apply get_ok; lia|apply get_ok; lia|].
    destruct (par_add1_sum _ _ V1 V2 LY) as (C & Q & VC & _ & HC). exists C. auto.
  - exists Cs. split; [exact EC|]. split; [exact LC|]. split.
    + apply Forall_forall. intros C I. destruct (In_zn pm_none _ _ I) as (r & Hr & <-). apply HC. lia.
    + intros i j. rewrite !(world_mat_sum R), LC, L, <- (sum_range_add R). apply sum_range_ext. intros r Hr. now apply HC.
Qed.

End Add.

(* ---------------------------------------------------------------- constructors *)

Section Make.
Context {S : scalar}.
Variable reorder : csr S -> csr S.
Hypothesis Hre : reorders reorder.

Lemma pm_make_iff rs cs (D O : csr S) cm : csr_valid D -> csr_valid O -> ((exists A, pm_make reorder rs cs D O cm = Ok A) <-> layout rs cs D O cm).
Proof.
  intros VD VO. split.
  - intros (A & Q). now apply (pm_make_inv reorder rs cs D O cm A).
  - intros L. destruct (pm_make_ok reorder Hre rs cs D O cm VD VO L) as (A & Q & _). now exists A.
Qed.

Lemma pm_make_all_ok (parts : list (csr S * csr S * list Z)) : 0 < zlen parts ->
  let rows := map (fun x => c_rows (fst (fst x))) parts in
  let cols := map (fun x => c_cols (fst (fst x))) parts in
  let rs r := [first_of rows r; first_of rows (r + 1); first_of rows (zlen parts)] in
  let cs r := [first_of cols r; first_of cols (r + 1); first_of cols (zlen parts)] in
  (forall r D O cm, get parts r = Ok (D, O, cm) -> csr_valid D /\ csr_valid O /\ layout (rs r) (cs r) D O cm) ->
  exists As, pm_make_all reorder parts = Ok As /\ zlen As = zlen parts /\
    forall r D O cm, get parts r = Ok (D, O, cm) -> exists A, get As r = Ok A /\ pm_valid A /\ pm_rs A = rs r /\ pm_cs A = cs r /\ pm_map A = cm /\
      pm_diag A = reorder D /\ entries (pm_offd A) = entries O.
Proof.
  intros Hp rows cols rs cs H. assert (Hx : exists x0 : csr S * csr S * list Z, In x0 parts).
  { destruct parts as [|x parts0]; [change (zlen (@nil (csr S * csr S * list Z))) with 0 in Hp; lia|]. exists x. now left. }
  destruct Hx as (x0 & _).
  unfold pm_make_all. destruct (offsets_tile (map (fun x => [c_rows (fst (fst x)); c_cols (fst (fst x))]) parts) 2) as (offs & Eo & Lo & Ho).
  { rewrite zlen_map. exact Hp. }
  { intros r Hr. rewrite zlen_map in Hr. rewrite (zn_map x0 []) by exact Hr. reflexivity. }
  rewrite zlen_map in *. rewrite Eo. cbn [bind].
  destruct (ranks_ex pm_none (fun r A => forall D O cm, get parts r = Ok (D, O, cm) -> pm_valid A /\ pm_rs A = rs r /\ pm_cs A = cs r /\ pm_map A = cm /\ pm_diag A = reorder D /\ entries (pm_offd A) = entries O) (zlen parts)
    (fun r => x <- get parts r ;; s <- get offs r ;; assert_ (zlen s =? 2) ;;; rs <- get s 0 ;; cs <- get s 1 ;; pm_init reorder rs cs (fst (fst x)) (snd (fst x)) (snd x))) as (As & EA & LA & HA).
  { lia. }
  { intros r Hr. rewrite (get_ok x0) by lia. cbn [bind]. rewrite (get_ok []) by lia. cbn [bind]. destruct (Ho r Hr) as (L2 & Hv). rewrite L2, Z.eqb_refl. cbn [assert_ bind].
    rewrite (get_ok []) by lia. cbn [bind]. rewrite (get_ok []) by lia. cbn [bind]. rewrite !Hv by lia. rewrite !map_map.
    change (map (fun x => zn 0 [c_rows (fst (fst x)); c_cols (fst (fst x))] 0) parts) with rows. change (map (fun x => zn 0 [c_rows (fst (fst x)); c_cols (fst (fst x))] 1) parts) with cols.
    fold (rs r) (cs r). destruct (zn x0 parts r) as [[D O] cm] eqn:Ez. cbn [fst snd]. destruct (H r D O cm) as (VD & VO & LY); [rewrite (get_ok x0) by lia; now rewrite Ez|].
    destruct (pm_make_ok reorder Hre (rs r) (cs r) D O cm VD VO LY) as (A & Q & VA & F).
    exists A. split.
    - unfold pm_make in Q. do 4 (apply bind_Ok in Q; destruct Q as (? & _ & Q)). do 4 (apply bind_Ok in Q; destruct Q as ([] & _ & Q)). exact Q.
    - intros D' O' cm' Q'. injection Q' as <- <- <-. auto. }
  exists As. split; [exact EA|]. split; [exact LA|]. intros r D O cm G. assert (Hr : 0 <= r < zlen parts) by (destruct (get_Ok_inv x0 _ _ _ G); auto).
  exists (zn pm_none As r). split; [apply get_ok; lia|]. now apply HA.
Qed.

End Make.

(* ---------------------------------------------------------------- ParSplit *)

Section Split.
Context {S : scalar}.

Lemma par_split_symmetric (E : eqb_laws S) (R : ring_laws S) srt reorder (A : csr S) part p : sorts srt -> reorders reorder -> csr_valid A -> c_rows A = c_cols A ->
  0 < p -> zlen part = c_rows A -> (forall i, 0 <= i < zlen part -> 0 <= zn 0 part i < p) ->
  (forall i j, zn 0 part i = zn 0 part j -> csr_mat A i j = csr_mat A j i) ->
  exists Cs, par_split srt reorder p A part = Ok Cs /\ zlen Cs = p /\ Forall pm_valid Cs /\
    forall i j, 0 <= i < zlen part -> 0 <= j < zlen part -> world_mat Cs (renumber part i) (renumber part j) = csr_mat A i j.
Proof.
  intros Hsrt Hre VA Hsq Hp0 Hn Hp Sym. destruct (par_split_ok E R srt reorder A part p Hsrt Hre VA Hsq Hp0 Hn Hp) as (Cs & Q & L & V & H).
  exists Cs. split; [exact Q|]. split; [exact L|]. split.
  - apply Forall_forall. intros C I. destruct (In_zn pm_none _ _ I) as (r & Hr & <-). apply V. lia.
  - intros i j Hi Hj. rewrite H by assumption. unfold split_value. destruct (Z.eqb_spec (zn 0 part i) (zn 0 part j)) as [Qp|]; [|reflexivity].
    destruct (Z.le_ge_cases i j) as [Le|Le].
    + now rewrite Z.min_l, Z.max_r by lia.
    + rewrite Z.min_r, Z.max_l by lia. now apply Sym.
Qed.

(** Rank r owns the vertices labelled r, in order. *)
Lemma par_split_square srt reorder (A : csr S) part p : c_rows A <> c_cols A -> par_split srt reorder p A part = Fail FAssert.
Proof. intros H. unfold par_split. apply Z.eqb_neq in H. now rewrite H. Qed.

Lemma par_split_rows (E : eqb_laws S) (R : ring_laws S) srt reorder (A : csr S) part p : sorts srt -> reorders reorder -> csr_valid A -> c_rows A = c_cols A ->
  0 < p -> zlen part = c_rows A -> (forall i, 0 <= i < zlen part -> 0 <= zn 0 part i < p) ->
  exists Cs, par_split srt reorder p A part = Ok Cs /\ zlen Cs = p /\
    (forall r C, get Cs r = Ok C -> pm_valid C /\ pm_cs C = pm_rs C /\ pm_grows C = c_rows A /\
      forall i, 0 <= i < zlen part -> (zn 0 (pm_rs C) 0 <= renumber part i < zn 0 (pm_rs C) 1 <-> zn 0 part i = r)) /\
    forall i j, 0 <= i < zlen part -> 0 <= j < zlen part ->
      world_mat Cs (renumber part i) (renumber part j) = if zn 0 part i =? zn 0 part j then csr_mat A (Z.min i j) (Z.max i j) else csr_mat A i j.
Proof.
  intros Hsrt Hre VA Hsq Hp0 Hn Hp. destruct (par_split_ok E R srt reorder A part p Hsrt Hre VA Hsq Hp0 Hn Hp) as (Cs & Q & L & V & H).
  exists Cs. split; [exact Q|]. split; [exact L|]. split; [|exact H].
  intros r C G. destruct (get_Ok_inv pm_none _ _ _ G) as (Hr & ->). destruct (V r ltac:(lia)) as (V1 & V2 & V3). split; [exact V1|]. unfold pm_grows. rewrite V2, V3.
  split; [reflexivity|]. split; [exact Hn|]. intros i Hi. exact (in_range_iff part i r Hi).
Qed.

End Split.

(* ---------------------------------------------------------------- ParVector *)

Lemma pv_init_eq size a b n rest : pv_init size (a :: b :: n :: rest) =
  if (0 <=? a) && (0 <=? b) && (size =? b - a) && (a <? n) && (b <=? n) && (a <=? b) then Ok n else Fail FAssert.
Proof.
  unfold pv_init. replace (2 <=? zlen (a :: b :: n :: rest)) with true by (symmetry; apply Z.leb_le; rewrite !zlen_cons; pose proof (zlen_nonneg rest); lia).
  change (get (a :: b :: n :: rest) 0) with (Ok a). change (get (a :: b :: n :: rest) 1) with (Ok b). change (get (a :: b :: n :: rest) 2) with (Ok n).
  cbn [assert_ bind]. destruct (0 <=? a); [|reflexivity]. destruct (0 <=? b); [|reflexivity]. destruct (size =? b - a); [|reflexivity].
  destruct (a <? n); [|reflexivity]. destruct (b <=? n); [|reflexivity]. destruct (a <=? b); reflexivity.
Qed.

Lemma pv_init_iff size a b n rest : pv_init size (a :: b :: n :: rest) = Ok n <-> (0 <= a /\ a <= b /\ b <= n /\ size = b - a /\ a < n).
Proof.
  rewrite pv_init_eq. destruct ((0 <=? a) && (0 <=? b) && (size =? b - a) && (a <? n) && (b <=? n) && (a <=? b)) eqn:Q.
  - rewrite !andb_true_iff, Z.eqb_eq, Z.ltb_lt, !Z.leb_le in Q. split; [lia|reflexivity].
  - split; [discriminate|]. intros H. rewrite <- not_true_iff_false in Q. exfalso. apply Q. rewrite !andb_true_iff, Z.eqb_eq, Z.ltb_lt, !Z.leb_le. lia.
Qed.

Lemma pv_init_empty_rank sizes n : generate_offsets1 (sizes ++ [0]) = Ok n -> exists part, get n (zlen sizes) = Ok part /\ pv_init 0 part = Fail FAssert.
Proof.
  assert (L : zlen (sizes ++ [0]) = zlen sizes + 1) by (rewrite zlen_app; reflexivity). pose proof (zlen_nonneg sizes).
  rewrite generate_offsets1_ok by lia. intros Q. injection Q as <-. eexists. rewrite (get_ok []) by (rewrite zlen_map_zrange; lia). rewrite zn_map_zrange by lia. split; [reflexivity|].
  rewrite pv_init_eq, L, first_of_S by lia. rewrite zn_app_r by lia. rewrite Z.sub_diag. change (zn 0 [0] 0) with 0. rewrite Z.add_0_r, Z.ltb_irrefl, andb_false_r. reflexivity.
Qed.

Lemma pv_init_two size a b : 0 <= a -> 0 <= b -> pv_init size [a; b] = Fail FUB.
Proof.
  intros Ha Hb. unfold pv_init. change (2 <=? zlen [a; b]) with true. change (get [a; b] 0) with (Ok a). change (get [a; b] 1) with (Ok b). cbn [assert_ bind].
  rewrite (proj2 (Z.leb_le 0 a) Ha), (proj2 (Z.leb_le 0 b) Hb). reflexivity.
Qed.
