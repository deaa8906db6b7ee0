(** Proofs about copies and moves. *)

From Coq Require Import ZArith List Bool Lia.
From Verif Require Import Base Scalar Spec Dense Sparse Coo Lil Block Life LifeSpec.
Import ListNotations.
Open Scope Z_scope.

Lemma get_map {A B} (f : A -> B) l i : get (map f l) i = (a <- get l i ;; Ok (f a)).
Proof. unfold get. destruct (i <? 0); [reflexivity|]. rewrite nth_error_map. now destruct (nth_error l (Z.to_nat i)). Qed.

Lemma upd_map {A B} (f : A -> B) l k a : upd (map f l) k (f a) = map f (upd l k a).
Proof. revert k. induction l as [|x l IH]; intros [|k]; cbn; try reflexivity. now rewrite IH. Qed.

Lemma set_map {A B} (f : A -> B) l i a : set (map f l) i (f a) = (l' <- set l i a ;; Ok (map f l')).
Proof. unfold set. rewrite zlen_map. destruct (_ && _); [|reflexivity]. cbn [bind]. now rewrite upd_map. Qed.

Lemma get_In {A} (l : list A) i a : get l i = Ok a -> In a l.
Proof. unfold get. destruct (i <? 0); [discriminate|]. destruct (nth_error l (Z.to_nat i)) eqn:E; [|discriminate]. intros [= <-]. now apply nth_error_In in E. Qed.

Lemma In_upd {A} (l : list A) k a x : In x (upd l k a) -> x = a \/ In x l.
Proof. revert k. induction l as [|y l IH]; intros [|k]; cbn; [tauto|tauto|intros [<-|H]; auto|intros [<-|H]; [auto|]]. destruct (IH _ H); auto. Qed.

Lemma set_In {A} (l l' : list A) i a x : set l i a = Ok l' -> In x l' -> x = a \/ In x l.
Proof. unfold set. destruct (_ && _); [|discriminate]. intros [= <-]. apply In_upd. Qed.

Section Generic.
Context {O V : Type} (K : class O) (val : O -> V) (ok : V -> Prop).
Hypothesis fresh_ok : ok (val (k_fresh K)).
Hypothesis copies : forall o, ok (val o) -> exists c, k_copy K o = Ok c /\ val c = val o.
Hypothesis swaps : forall a b, val (fst (k_swap K a b)) = val b /\ val (snd (k_swap K a b)) = val a.

Definition good (st : list O) : Prop := forall o, In o st -> ok (val o).

Lemma good_set st st' i o : good st -> ok (val o) -> set st i o = Ok st' -> good st'.
Proof. intros G H E x Hx. destruct (set_In _ _ _ _ _ E Hx) as [-> |H']; auto. Qed.

Lemma good_app st o : good st -> ok (val o) -> good (st ++ [o]).
Proof. intros G H x Hx. apply in_app_iff in Hx. destruct Hx as [Hx|[<-|[]]]; auto. Qed.

(** Setting an object whose value is known *)
Lemma set_val st i o v vs : val o = v -> set (map val st) i v = Ok vs -> exists st', set st i o = Ok st' /\ map val st' = vs.
Proof. intros <-. rewrite set_map. destruct (set st i o) as [st'|]; cbn [bind]; [|discriminate]. intros [= <-]. eauto. Qed.

Lemma get_val st i v : get (map val st) i = Ok v -> exists o, get st i = Ok o /\ val o = v /\ In o st.
Proof. rewrite get_map. destruct (get st i) as [o|] eqn:E; cbn [bind]; [|discriminate]. intros [= <-]. apply get_In in E. eauto. Qed.

Lemma lstep_ok st p vs : good st -> (forall x o, p = LSet x o -> ok (val o)) -> vstep val (val (k_fresh K)) (map val st) p = Ok vs ->
  exists st', lstep K st p = Ok st' /\ map val st' = vs /\ good st'.
Proof.
  intros G GS E. destruct p as [y|y|x y|x y|x y|x o]; cbn [vstep] in E; cbn [lstep].
  - destruct (get (map val st) y) as [v|] eqn:Ev; cbn [bind] in E; [|discriminate]. injection E as <-.
    destruct (get_val _ _ _ Ev) as (o & -> & <- & Ho). cbn [bind]. destruct (copies o (G o Ho)) as (c & -> & Hc). cbn [bind].
    eexists. split; [reflexivity|]. split; [now rewrite map_app, <- Hc|]. apply good_app; [exact G|]. rewrite Hc. auto.
  - destruct (get (map val st) y) as [v|] eqn:Ev; cbn [bind] in E; [|discriminate].
    destruct (get_val _ _ _ Ev) as (o & -> & <- & Ho). cbn [bind]. unfold move_ctor. destruct (swaps (k_fresh K) o) as (S1 & S2). destruct (k_swap K (k_fresh K) o) as [n o']. cbn [fst snd] in *.
    destruct (set (map val st) y _) as [ws|] eqn:Es; cbn [bind] in E; [|discriminate]. injection E as <-.
    destruct (set_val st y o' _ _ S2 Es) as (st' & E' & <-). rewrite E'. cbn [bind]. eexists. split; [reflexivity|]. split; [now rewrite map_app, <- S1|].
    apply good_app; [|rewrite S1; auto]. apply (good_set st st' y o' G); [rewrite S2; exact fresh_ok|exact E'].
  - destruct (get (map val st) y) as [v|] eqn:Ev; cbn [bind] in E; [|discriminate].
    destruct (get_val _ _ _ Ev) as (o & -> & <- & Ho). cbn [bind]. destruct (copies o (G o Ho)) as (c & -> & Hc). cbn [bind].
    destruct (set_val st x c _ _ Hc E) as (st0 & E0 & _).
    destruct (get st x) as [this|] eqn:Et; [|exfalso; unfold set in E0; unfold get in Et; destruct (Z.ltb_spec x 0); destruct (Z.leb_spec 0 x); destruct (Z.ltb_spec x (zlen st)); cbn in E0; try discriminate E0; try lia; destruct (nth_error st (Z.to_nat x)) eqn:En; [discriminate|apply nth_error_None in En; unfold zlen in *; lia]].
    cbn [bind]. unfold assign_by. destruct (swaps this c) as (S1 & _). rewrite Hc in S1. destruct (set_val st x (fst (k_swap K this c)) _ _ S1 E) as (st' & E' & <-).
    exists st'. split; [exact E'|]. split; [reflexivity|]. apply (good_set st st' x _ G) in E'; [exact E'|]. rewrite S1. auto.
  - destruct (get (map val st) y) as [v|] eqn:Ev; cbn [bind] in E; [|discriminate].
    destruct (get_val _ _ _ Ev) as (o & -> & <- & Ho). cbn [bind]. unfold move_ctor. destruct (swaps (k_fresh K) o) as (S1 & S2). destruct (k_swap K (k_fresh K) o) as [n o']. cbn [fst snd] in *.
    destruct (set (map val st) y _) as [ws|] eqn:Es; cbn [bind] in E; [|discriminate].
    destruct (set_val st y o' _ _ S2 Es) as (st1 & E1 & <-). rewrite E1. cbn [bind].
    assert (G1 : good st1) by (apply (good_set st st1 y o' G); [rewrite S2; exact fresh_ok|exact E1]).
    destruct (set_val st1 x n _ _ S1 E) as (st0 & E0 & _).
    destruct (get st1 x) as [this|] eqn:Et; [|exfalso; unfold set in E0; unfold get in Et; destruct (Z.ltb_spec x 0); destruct (Z.leb_spec 0 x); destruct (Z.ltb_spec x (zlen st1)); cbn in E0; try discriminate E0; try lia; destruct (nth_error st1 (Z.to_nat x)) eqn:En; [discriminate|apply nth_error_None in En; unfold zlen in *; lia]].
    cbn [bind]. unfold assign_by. destruct (swaps this n) as (S3 & _). rewrite S1 in S3. destruct (set_val st1 x (fst (k_swap K this n)) _ _ S3 E) as (st' & E' & <-).
    exists st'. split; [exact E'|]. split; [reflexivity|]. apply (good_set st1 st' x _ G1) in E'; [exact E'|]. rewrite S3. auto.
  - destruct (get (map val st) x) as [v|] eqn:Ev; cbn [bind] in E; [|discriminate].
    destruct (get (map val st) y) as [w|] eqn:Ew; cbn [bind] in E; [|discriminate].
    destruct (get_val _ _ _ Ev) as (a & -> & <- & Ha). destruct (get_val _ _ _ Ew) as (b & -> & <- & Hb). cbn [bind].
    destruct (swaps a b) as (S1 & S2). destruct (k_swap K a b) as [a' b']. cbn [fst snd] in *.
    destruct (set (map val st) x _) as [ws|] eqn:Es; cbn [bind] in E; [|discriminate].
    destruct (set_val st x a' _ _ S1 Es) as (st1 & E1 & <-). rewrite E1. cbn [bind].
    destruct (set_val st1 y b' _ _ S2 E) as (st' & E' & <-). exists st'. split; [exact E'|]. split; [reflexivity|].
    apply (good_set st1 st' y b'); [|rewrite S2; auto|exact E']. apply (good_set st st1 x a' G); [rewrite S1; auto|exact E1].
  - destruct (set_val st x o _ _ eq_refl E) as (st' & E' & <-). exists st'. split; [exact E'|]. split; [reflexivity|].
    apply (good_set st st' x o G); [now apply (GS x o)|exact E'].
Qed.

Lemma class_ok : values_class K val ok.
Proof.
  intros st ps. revert st. induction ps as [|p ps IH]; intros st vs G GS E.
  - injection E as <-. exists st. now split.
  - cbn [foldM] in E. destruct (vstep val (val (k_fresh K)) (map val st) p) as [ws|] eqn:Ep; cbn [bind] in E; [|discriminate].
    destruct (lstep_ok st p ws G) as (st1 & E1 & <- & G1); [intros x o ->; apply (GS x o); now left|exact Ep|].
    destruct (IH st1 vs G1) as (st' & E' & Hv); [intros x o Hx; apply (GS x o); now right|exact E|].
    exists st'. split; [|exact Hv]. unfold lrun in *. cbn [foldM]. rewrite E1. exact E'.
Qed.
End Generic.

Lemma op_copy_ok rows cols : 0 <= rows -> 0 <= cols -> op_copy rows cols = Ok tt.
Proof. intros H1 H2. unfold op_copy. apply Z.leb_le in H1, H2. now rewrite H1, H2. Qed.

Ltac by_members := apply class_ok;
  [split; cbn; lia | intros o (H1 & H2); cbn in *; rewrite ?(op_copy_ok _ _ H1 H2); cbn [bind]; eexists; split; [reflexivity|]; now destruct o | intros a b; cbn; split; now destruct a, b].

Section Classes.
Context {S : scalar}.

Lemma sp_values : values_class (@sp_class S) (fun o => o) (sized (@c_rows S) (@c_cols S)). Proof. by_members. Qed.
Lemma d_values : values_class (@d_class S) (fun o => o) (sized (@d_rows S) (@d_cols S)). Proof. by_members. Qed.
Lemma coo_values : values_class (@coo_class S) (fun o => o) (sized (@co_rows S) (@co_cols S)). Proof. by_members. Qed.
Lemma lil_values : values_class (@lil_class S) (fun o => o) (sized (@lo_rows S) (@lo_cols S)). Proof. by_members. Qed.
Lemma bm_values : values_class (@bm_class S) (fun o => o) (sized (@bm_rows S) (@bm_cols S)). Proof. by_members. Qed.
Lemma bv_values : values_class (@bv_class S) (fun o => o) (fun _ => True).
Proof. apply class_ok; [exact I|intros o _; cbn; eexists; split; [reflexivity|]; now destruct o|intros a b; cbn; split; now destruct a, b]. Qed.

Lemma bo_values : values_class (@bo_class S) bo_value (fun v => let '(rows, cols, _, _, _, _, _) := v in 0 <= rows /\ 0 <= cols).
Proof.
  apply class_ok.
  - cbn. lia.
  - intros [rows cols ro co A x y tmp] (H1 & H2). cbn in *. rewrite (op_copy_ok _ _ H1 H2). cbn [bind]. eexists. split; reflexivity.
  - intros [? ? ? ? ? [? ?] [? ?] ?] [? ? ? ? ? [? ?] [? ?] ?]. split; reflexivity.
Qed.

Lemma so_copy_ok (o : sobj S) : sized (@so_rows S) (@so_cols S) o -> so_copy o = Ok o.
Proof. intros (H1 & H2). unfold so_copy. rewrite (op_copy_ok _ _ H1 H2). now destruct o. Qed.

Lemma pcg_values : values_class (@pcg_class S) (fun o => o) (fun o => sized (@so_rows S) (@so_cols S) (pg_base o)).
Proof.
  apply class_ok; [split; cbn; lia| |].
  - intros o H. cbn. rewrite (so_copy_ok _ H). cbn [bind]. eexists. split; [reflexivity|]. now destruct o.
  - intros [[]] [[]]. split; reflexivity.
Qed.
Lemma minres_values : values_class (@minres_class S) (fun o => o) (fun o => sized (@so_rows S) (@so_cols S) (mr_base o)).
Proof.
  apply class_ok; [split; cbn; lia| |].
  - intros o H. cbn. rewrite (so_copy_ok _ H). cbn [bind]. eexists. split; [reflexivity|]. now destruct o.
  - intros [[]] [[]]. split; reflexivity.
Qed.
Lemma pminres_values : values_class (@pminres_class S) (fun o => o) (fun o => sized (@so_rows S) (@so_cols S) (pm_base o)).
Proof.
  apply class_ok; [split; cbn; lia| |].
  - intros o H. cbn. rewrite (so_copy_ok _ H). cbn [bind]. eexists. split; [reflexivity|]. now destruct o.
  - intros [[]] [[]]. split; reflexivity.
Qed.

End Classes.

(** ** Plain values *)

Lemma upd_same {A} (l : list A) k a : nth_error l k = Some a -> upd l k a = l.
Proof. revert k. induction l as [|x l IH]; intros [|k]; cbn; try discriminate; [now intros [= ->]|]. intros H. now rewrite (IH _ H). Qed.

Lemma upd_upd {A} (l : list A) k a b : upd (upd l k a) k b = upd l k b.
Proof. revert k. induction l as [|x l IH]; intros [|k]; cbn; try reflexivity. now rewrite IH. Qed.

Lemma zlen_upd' {A} (l : list A) k a : zlen (upd l k a) = zlen l.
Proof. unfold zlen. f_equal. revert k. induction l as [|x l IH]; intros [|k]; cbn; try reflexivity. now rewrite IH. Qed.

Lemma get_ex {A} (l : list A) i : 0 <= i < zlen l -> exists a, get l i = Ok a /\ nth_error l (Z.to_nat i) = Some a.
Proof.
  intros H. unfold get. destruct (Z.ltb_spec i 0); [lia|]. destruct (nth_error l (Z.to_nat i)) as [a|] eqn:E; [eauto|].
  apply nth_error_None in E. unfold zlen in H. lia.
Qed.

Lemma get_range {A} (l : list A) i a : get l i = Ok a -> 0 <= i < zlen l /\ nth_error l (Z.to_nat i) = Some a.
Proof.
  unfold get. destruct (Z.ltb_spec i 0); [discriminate|]. destruct (nth_error l (Z.to_nat i)) eqn:E; [|discriminate]. intros [= <-].
  split; [|reflexivity]. assert (Hn : nth_error l (Z.to_nat i) <> None) by congruence. apply nth_error_Some in Hn. unfold zlen. lia.
Qed.

Lemma set_upd {A} (l : list A) i a : 0 <= i < zlen l -> set l i a = Ok (upd l (Z.to_nat i) a).
Proof. intros H. unfold set. destruct (Z.leb_spec 0 i); [|lia]. destruct (Z.ltb_spec i (zlen l)); [reflexivity|lia]. Qed.

Lemma v_self (O V : Type) (val : O -> V) (e : V) (vs : list V) (x : Z) : 0 <= x < zlen vs ->
  vstep val e vs (LAssign x x) = Ok vs /\ vstep val e vs (LSwap x x) = Ok vs /\ vstep val e vs (LMoveAssign x x) = Ok vs.
Proof.
  intros H. destruct (get_ex vs x H) as (v & E & En). cbn [vstep]. rewrite E. cbn [bind]. rewrite !(set_upd vs x) by exact H. cbn [bind].
  rewrite !set_upd by (now rewrite zlen_upd'). now rewrite !upd_upd, (upd_same _ _ _ En).
Qed.

Lemma upd_app_l {A} (l m : list A) k a : (k < length l)%nat -> upd (l ++ m) k a = upd l k a ++ m.
Proof. revert k. induction l as [|x l IH]; intros [|k] H; cbn in *; try lia; [reflexivity|]. rewrite IH by lia. reflexivity. Qed.

Lemma upd_app_r {A} (l : list A) v a : upd (l ++ [v]) (length l) a = l ++ [a].
Proof. induction l as [|x l IH]; cbn; [reflexivity|]. now rewrite IH. Qed.

Lemma v_copy_independent (O V : Type) (val : O -> V) (e : V) (vs : list V) (y : Z) (o : O) (v : V) : get vs y = Ok v ->
  foldM (vstep val e) [LCopy y; LSet y o] vs = Ok (upd vs (Z.to_nat y) (val o) ++ [v]) /\
  foldM (vstep val e) [LCopy y; LSet (zlen vs) o] vs = Ok (vs ++ [val o]).
Proof.
  intros E. destruct (get_range _ _ _ E) as (H & _). cbn [foldM vstep]. rewrite E. cbn [bind].
  assert (Hl : zlen (vs ++ [v]) = zlen vs + 1) by (unfold zlen; rewrite app_length; cbn; lia).
  rewrite !set_upd by lia. cbn [bind]. rewrite upd_app_l by (unfold zlen in H; lia). split; [reflexivity|].
  unfold zlen. now rewrite Nat2Z.id, upd_app_r.
Qed.

Section Moved.
Context {S : scalar}.

Lemma get_upd_same {A} (l m : list A) y a : 0 <= y < zlen l -> get (upd l (Z.to_nat y) a ++ m) y = Ok a.
Proof.
  intros H. unfold get. destruct (Z.ltb_spec y 0); [lia|]. rewrite nth_error_app1.
  - assert (Hn : (Z.to_nat y < length l)%nat) by (unfold zlen in H; lia). revert Hn. generalize (Z.to_nat y). clear. induction l as [|x l IH]; intros [|k] H; cbn in *; try lia; [reflexivity|]. apply IH. lia.
  - pose proof (zlen_upd' l (Z.to_nat y) a). unfold zlen in *. lia.
Qed.

Lemma moved {O} (K : class O) (st : list O) y : (forall a b, k_swap K a b = (b, a)) -> 0 <= y < zlen st ->
  exists st', lrun K st [LMove y] = Ok st' /\ get st' y = Ok (k_fresh K).
Proof.
  intros Hs H. destruct (get_ex st y H) as (o & E & _). unfold lrun. cbn [foldM lstep]. rewrite E. cbn [bind]. unfold move_ctor. rewrite Hs.
  rewrite set_upd by exact H. cbn [bind]. eexists. split; [reflexivity|]. now apply get_upd_same.
Qed.

Lemma coo_swap (a b : cobj S) : k_swap coo_class a b = (b, a). Proof. now destruct a, b. Qed.
Lemma lil_swap (a b : lobj S) : k_swap lil_class a b = (b, a). Proof. now destruct a, b. Qed.
Lemma sp_class_swap (a b : csr S) : k_swap sp_class a b = (b, a). Proof. now destruct a, b. Qed.
Lemma d_class_swap (a b : dense S) : k_swap d_class a b = (b, a). Proof. now destruct a, b. Qed.
Lemma bm_class_swap (a b : bmat S) : k_swap bm_class a b = (b, a). Proof. now destruct a, b. Qed.

Lemma moved_sizes {O} (K : class O) (rows cols : O -> Z) : (forall a b, k_swap K a b = (b, a)) -> rows (k_fresh K) = 0 -> cols (k_fresh K) = 0 -> leaves_empty K rows cols.
Proof. intros Hs Hr Hc st y H. destruct (moved K st y Hs H) as (st' & E & G). exists st', (k_fresh K). auto. Qed.
Lemma all_moved_empty :
  leaves_empty (@sp_class S) (@c_rows S) (@c_cols S) /\ leaves_empty (@d_class S) (@d_rows S) (@d_cols S) /\
  leaves_empty (@coo_class S) (@co_rows S) (@co_cols S) /\ leaves_empty (@lil_class S) (@lo_rows S) (@lo_cols S) /\
  leaves_empty (@bm_class S) (@bm_rows S) (@bm_cols S).
Proof. repeat split; apply moved_sizes; try reflexivity; intros a b; [apply sp_class_swap|apply d_class_swap|apply coo_swap|apply lil_swap|apply bm_class_swap]. Qed.

Lemma coo_moved (st : list (cobj S)) y : 0 <= y < zlen st ->
  exists st' o', lrun coo_class st [LMove y] = Ok st' /\ get st' y = Ok o' /\ coo_use o' = Fail FUB.
Proof. intros H. destruct (moved coo_class st y coo_swap H) as (st' & E & G). eauto. Qed.

Lemma lil_moved (st : list (lobj S)) y : 0 <= y < zlen st ->
  exists st' o', lrun lil_class st [LMove y] = Ok st' /\ get st' y = Ok o' /\ lil_use o' = Fail FUB.
Proof. intros H. destruct (moved lil_class st y lil_swap H) as (st' & E & G). eauto. Qed.

Lemma coo_moved_set_size (st : list (cobj S)) y rows cols : 0 <= y < zlen st -> 0 <= rows -> 0 <= cols ->
  exists st' o' o'', lrun coo_class st [LMove y] = Ok st' /\ get st' y = Ok o' /\
    coo_use_set_size o' rows cols = Ok o'' /\ coo_use o'' = coo_new_size rows cols.
Proof.
  intros H Hr Hc. destruct (moved coo_class st y coo_swap H) as (st' & E & G). exists st', (k_fresh coo_class), (CObj rows cols (Some true) []).
  split; [exact E|]. split; [exact G|]. unfold coo_use_set_size, coo_new_size. apply Z.leb_le in Hr, Hc. rewrite Hr, Hc. split; reflexivity.
Qed.

Lemma coo_assigned (st : list (cobj S)) x y (M : coo S) : 0 <= x < zlen st ->
  get st y = Ok (of_coo M) -> 0 <= Coo.o_rows M -> 0 <= Coo.o_cols M ->
  exists st' o, lrun coo_class st [LAssign x y] = Ok st' /\ get st' x = Ok o /\ coo_use o = Ok M.
Proof.
  intros H E Hr Hc. destruct (get_ex st x H) as (this & Et & _). unfold lrun. cbn [foldM lstep]. rewrite E. cbn [bind].
  cbn [k_copy coo_class of_coo co_rows co_cols]. rewrite (op_copy_ok _ _ Hr Hc). cbn [bind]. rewrite Et. cbn [bind]. unfold assign_by. rewrite coo_swap. cbn [fst].
  rewrite set_upd by exact H. cbn [bind]. eexists _, _. split; [reflexivity|]. rewrite <- (app_nil_r (upd _ _ _)) at 1. split; [now apply get_upd_same|]. now destruct M.
Qed.
End Moved.
