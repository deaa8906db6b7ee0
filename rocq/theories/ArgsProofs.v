(** Proofs about the command line parser and the timer. *)

From Coq Require Import ZArith List Bool Lia String Sorted.
From Verif Require Import Base Scalar Spec SumFacts Text Parser ParserSpec TextProofs Args ArgsSpec.
Import ListNotations.
Open Scope Z_scope.

(* ---------------------------------------------------------------- strings *)

Lemma str_eqb_eq a : forall b, str_eqb a b = true <-> a = b.
Proof.
  induction a as [|x a IH]; intros [|y b]; cbn; split; intros H; try discriminate; try reflexivity.
  - apply andb_true_iff in H. destruct H as (H1 & H2). apply Z.eqb_eq in H1. apply IH in H2. congruence.
  - injection H as -> ->. rewrite Z.eqb_refl. now apply IH.
Qed.
Lemma str_eqb_refl a : str_eqb a a = true. Proof. now apply str_eqb_eq. Qed.
Lemma str_eqb_neq a b : str_eqb a b = false <-> a <> b.
Proof. split; intros H. - intros E. apply str_eqb_eq in E. congruence. - apply not_true_iff_false. rewrite str_eqb_eq. exact H. Qed.

Lemma str_ltb_lt a : forall b, str_ltb a b = true <-> str_lt a b.
Proof.
  induction a as [|x a IH]; intros [|y b]; cbn; split; intros H; try discriminate; try reflexivity; try (inversion H; fail); [constructor| |].
  - destruct (Z.ltb_spec x y); [now constructor|]. destruct (Z.ltb_spec y x); [discriminate|]. assert (x = y) by lia. subst. apply lt_later. now apply IH.
  - inversion H; subst.
    + apply Z.ltb_lt in H1. now rewrite H1.
    + rewrite Z.ltb_irrefl. now apply IH.
Qed.
Lemma str_lt_trans a b c : str_lt a b -> str_lt b c -> str_lt a c.
Proof.
  intros H. revert c. induction H; intros c Hc; inversion Hc; subst; try (apply lt_nil); try (apply lt_here; lia).
  apply lt_later. auto.
Qed.
Lemma str_lt_irrefl a : ~ str_lt a a.
Proof. induction a; intros H; inversion H; subst; [lia|auto]. Qed.
Lemma str_lt_total a : forall b, str_lt a b \/ a = b \/ str_lt b a.
Proof.
  induction a as [|x a IH]; intros [|y b]; [auto|left; constructor|right; right; constructor|].
  destruct (Z.lt_trichotomy x y) as [H|[->|H]]; [left; now apply lt_here| |right; right; now apply lt_here].
  destruct (IH b) as [H|[->|H]]; [left; now apply lt_later|auto|right; right; now apply lt_later].
Qed.

(* ---------------------------------------------------------------- maps *)

Definition key_lt (a b : str * str) : Prop := str_lt (fst a) (fst b).
Definition map_sorted (m : smap) : Prop := StronglySorted key_lt m.

Lemma m_find_put k v m : map_sorted m -> forall k', m_find k' (m_put k v m) = if str_eqb k' k then Some v else m_find k' m.
Proof.
  intros Hs k'. induction m as [|[k1 v1] m IH]; cbn [m_put m_find].
  - reflexivity.
  - inversion Hs as [|? ? Hs' Hall]; subst. specialize (IH Hs'). destruct (str_eqb k k1) eqn:E1.
    + apply str_eqb_eq in E1. subst k1. cbn [m_find]. now destruct (str_eqb k' k).
    + destruct (str_ltb k k1) eqn:E2.
      * cbn [m_find]. reflexivity.
      * cbn [m_find]. rewrite IH. destruct (str_eqb k' k1) eqn:E3; [|reflexivity].
        apply str_eqb_eq in E3. subst k1. destruct (str_eqb k' k) eqn:E4; [|reflexivity]. apply str_eqb_eq in E4. subst. rewrite str_eqb_refl in E1. discriminate.
Qed.
Lemma m_put_sorted k v m : map_sorted m -> map_sorted (m_put k v m).
Proof.
  intros Hs. induction m as [|[k1 v1] m IH]; cbn [m_put]; [repeat constructor|].
  inversion Hs as [|? ? Hs' Hall]; subst. destruct (str_eqb k k1) eqn:E1.
  - apply str_eqb_eq in E1. subst k1. constructor; [exact Hs'|]. exact Hall.
  - destruct (str_ltb k k1) eqn:E2.
    + apply str_ltb_lt in E2. constructor; [exact Hs|]. constructor; [exact E2|]. eapply Forall_impl; [|exact Hall]. intros a Ha. exact (str_lt_trans _ _ _ E2 Ha).
    + constructor; [apply IH, Hs'|]. assert (Hlt : str_lt k1 k).
      { destruct (str_lt_total k k1) as [H|[H|H]]; [apply str_ltb_lt in H; congruence|subst; rewrite str_eqb_refl in E1; discriminate|exact H]. }
      clear IH Hs Hs'. induction m as [|[k2 v2] m IH]; cbn [m_put]; [repeat constructor; exact Hlt|]. inversion Hall; subst.
      destruct (str_eqb k k2); [constructor; assumption|]. destruct (str_ltb k k2); constructor; auto.
Qed.
Lemma m_find_In k v m : map_sorted m -> (m_find k m = Some v <-> In (k, v) m).
Proof.
  intros Hs. induction m as [|[k1 v1] m IH]; cbn [m_find In]; [split; [discriminate|tauto]|].
  inversion Hs as [|? ? Hs' Hall]; subst. specialize (IH Hs'). destruct (str_eqb k k1) eqn:E.
  - apply str_eqb_eq in E. subst k1. split; intros H; [injection H as <-; auto|]. destruct H as [H|H]; [congruence|].
    rewrite Forall_forall in Hall. specialize (Hall _ H). exfalso. exact (str_lt_irrefl _ Hall).
  - rewrite IH. split; [auto|]. intros [H|H]; [injection H as -> ->; rewrite str_eqb_refl in E; discriminate|exact H].
Qed.

(** A map that holds the first (or the last) value of every key of a list. *)
Definition holds_first (l : list (str * str)) (m : smap) : Prop := map_sorted m /\ forall k v, m_find k m = Some v <-> first_value l k v.
Definition holds_last (l : list (str * str)) (m : smap) : Prop := map_sorted m /\ forall k v, m_find k m = Some v <-> last_value l k v.

Lemma first_value_In l k v : first_value l k v -> In (k, v) l.
Proof. intros (a & b & -> & _). apply in_or_app. right. left. reflexivity. Qed.
Lemma first_value_unique l k v v' : first_value l k v -> first_value l k v' -> v = v'.
Proof.
  intros (a & b & -> & H) (a' & b' & E & H'). revert a' E H'. induction a as [|x a IH]; intros [|x' a'] E H'; cbn in E.
  - congruence.
  - injection E as <- E. exfalso. apply H'. left. reflexivity.
  - injection E as -> E. exfalso. apply H. left. reflexivity.
  - injection E as <- E. apply (IH ltac:(intros F; apply H; right; exact F) a' E). intros F. apply H'. right. exact F.
Qed.
Lemma mentioned_first l k : mentioned l k -> exists v, first_value l k v.
Proof.
  unfold mentioned. induction l as [|[k1 v1] l IH]; intros H; [destruct H|]. destruct (str_dec k k1) as [->|Hn].
  - exists v1. exists [], l. split; [reflexivity|]. intros [].
  - destruct H as [H|H]; [cbn in H; congruence|]. destruct (IH H) as (v & a & b & -> & Ha). exists v, ((k1, v1) :: a), b. split; [reflexivity|]. intros [F|F]; [cbn in F; congruence|auto].
Qed.
Lemma first_value_mentioned l k v : first_value l k v -> mentioned l k.
Proof. intros H. apply first_value_In in H. unfold mentioned. apply in_map_iff. exists (k, v). auto. Qed.
Lemma first_value_snoc l k0 v0 k v : first_value (l ++ [(k0, v0)]) k v <-> first_value l k v \/ (~ mentioned l k /\ k = k0 /\ v = v0).
Proof.
  split.
  - intros H. destruct (in_dec str_dec k (map fst l)) as [Hi|Hn].
    + left. destruct (mentioned_first l k Hi) as (v' & Hv'). assert (E : first_value (l ++ [(k0, v0)]) k v').
      { destruct Hv' as (a & b & -> & Ha). exists a, (b ++ [(k0, v0)]). rewrite <- app_assoc. split; [reflexivity|exact Ha]. }
      now rewrite (first_value_unique _ _ _ _ H E).
    + right. split; [exact Hn|]. apply first_value_In in H. apply in_app_or in H. destruct H as [H|[H|[]]]; [|injection H; auto].
      exfalso. apply Hn, in_map_iff. exists (k, v). auto.
  - intros [(a & b & -> & Ha)|(Hn & -> & ->)].
    + exists a, (b ++ [(k0, v0)]). rewrite <- app_assoc. split; [reflexivity|exact Ha].
    + exists l, []. split; [reflexivity|exact Hn].
Qed.
Lemma last_value_snoc l k0 v0 k v : last_value (l ++ [(k0, v0)]) k v <-> (k = k0 /\ v = v0) \/ (k <> k0 /\ last_value l k v).
Proof.
  split.
  - intros (a & b & E & H). destruct b as [|x b] using rev_ind.
    + apply app_inj_tail in E. destruct E as (_ & E). injection E as -> ->. auto.
    + rewrite app_comm_cons, app_assoc in E. apply app_inj_tail in E. destruct E as (E & <-). right. rewrite map_app in H. split; [intros ->; apply H, in_or_app; right; left; reflexivity|].
      exists a, b. split; [exact E|]. intros F. apply H, in_or_app. auto.
  - intros [(-> & ->)|(Hn & a & b & -> & H)].
    + exists l, []. split; [reflexivity|]. intros [].
    + exists a, (b ++ [(k0, v0)]). rewrite <- app_assoc. split; [reflexivity|]. rewrite map_app. intros F. apply in_app_or in F. destruct F as [F|[F|[]]]; [auto|cbn in F; congruence].
Qed.
Lemma holds_first_mentioned l m k : holds_first l m -> (m_find k m = None <-> ~ mentioned l k).
Proof.
  intros (_ & H). split.
  - intros E Hm. destruct (mentioned_first l k Hm) as (v & Hv). apply H in Hv. congruence.
  - intros Hn. destruct (m_find k m) as [v|] eqn:E; [|reflexivity]. apply H in E. exfalso. exact (Hn (first_value_mentioned _ _ _ E)).
Qed.
Lemma holds_first_new l m k v : holds_first l m -> m_find k m = None -> holds_first (l ++ [(k, v)]) (m_put k v m).
Proof.
  intros H E. pose proof (proj1 (holds_first_mentioned l m k H) E) as Hn. destruct H as (Hs & H). split; [apply m_put_sorted, Hs|]. intros k' v'. rewrite (m_find_put k v m Hs), first_value_snoc, <- H.
  destruct (str_eqb k' k) eqn:Ek.
  - apply str_eqb_eq in Ek. subst k'. rewrite E. split; [intros F; injection F as <-; right; auto|]. intros [F|(_ & _ & ->)]; [discriminate|reflexivity].
  - apply str_eqb_neq in Ek. split; [auto|]. intros [F|(_ & F & _)]; [exact F|congruence].
Qed.
Lemma holds_first_old l m k v v' : holds_first l m -> m_find k m = Some v -> holds_first (l ++ [(k, v')]) m.
Proof.
  intros (Hs & H) E. split; [exact Hs|]. intros k0 v0. rewrite first_value_snoc, H. split; [auto|]. intros [F|(F & -> & _)]; [exact F|].
  exfalso. apply F. apply H in E. eapply first_value_mentioned, E.
Qed.
Lemma holds_last_put l m k v : holds_last l m -> holds_last (l ++ [(k, v)]) (m_put k v m).
Proof.
  intros (Hs & H). split; [apply m_put_sorted, Hs|]. intros k' v'. rewrite (m_find_put k v m Hs), last_value_snoc, <- H. destruct (str_eqb k' k) eqn:Ek.
  - apply str_eqb_eq in Ek. subst k'. split; [intros F; injection F as <-; auto|]. intros [(_ & ->)|(F & _)]; [reflexivity|congruence].
  - apply str_eqb_neq in Ek. split; [auto|]. intros [(F & _)|(_ & F)]; [congruence|exact F].
Qed.
Lemma holds_nil : holds_first [] [] /\ holds_last [] [].
Proof.
  split; (split; [constructor|]; intros k v; cbn; split; [discriminate|]); intros (a & b & E & _); destruct a; discriminate.
Qed.

Lemma repeated_snoc l f : forall before, repeated before (l ++ [f]) = repeated before l ++ (if in_dec str_dec f (before ++ l) then [f] else []).
Proof.
  induction l as [|g l IH]; intros before; cbn [repeated app].
  - rewrite app_nil_r. destruct (in_dec str_dec f before); reflexivity.
  - destruct (in_dec str_dec g before) as [Hg|Hg].
    + rewrite IH. cbn [app]. f_equal. f_equal. destruct (in_dec str_dec f (before ++ l)) as [H1|H1], (in_dec str_dec f (before ++ g :: l)) as [H2|H2]; try reflexivity.
      * exfalso. apply H2. apply in_app_or in H1. apply in_or_app. cbn. tauto.
      * exfalso. apply H1. apply in_app_or in H2. apply in_or_app. destruct H2 as [H2|[<-|H2]]; auto.
    + rewrite IH. f_equal. destruct (in_dec str_dec f ((g :: before) ++ l)) as [H1|H1], (in_dec str_dec f (before ++ g :: l)) as [H2|H2]; try reflexivity.
      * exfalso. apply H2. apply in_app_or in H1. apply in_or_app. cbn in *. tauto.
      * exfalso. apply H1. apply in_app_or in H2. apply in_or_app. cbn in *. tauto.
Qed.
Lemma repeated_nil l : forall before, (forall f, In f before -> ~ In f l) -> (repeated before l = [] <-> NoDup l).
Proof.
  induction l as [|g l IH]; intros before Hb; cbn [repeated]; [split; [constructor|reflexivity]|]. destruct (in_dec str_dec g before) as [Hg|Hg].
  - exfalso. apply (Hb g Hg). left. reflexivity.
  - destruct (in_dec str_dec g l) as [Hl|Hl].
    + split; intros H; [|inversion H; contradiction]. exfalso. clear IH Hb Hg. apply in_split in Hl. destruct Hl as (a & b & ->).
      assert (G : forall a before, In g before -> repeated before (a ++ g :: b) <> []).
      { clear. induction a as [|x a IH]; intros before Hin; cbn [repeated app].
        - destruct (in_dec str_dec g before); [discriminate|contradiction].
        - destruct (in_dec str_dec x before); [discriminate|]. apply IH. right. exact Hin. }
      exact (G a (g :: before) (or_introl eq_refl) H).
    + rewrite IH.
      * split; [constructor; assumption|]. intros H. now inversion H.
      * intros f [<-|Hf] Hin; [contradiction|]. apply (Hb f Hf). right. exact Hin.
Qed.

(* ---------------------------------------------------------------- the constructor *)

Definition again (f : str) : str := f ++ txt " entered multiple times!".
Definition twice (f : str) : str := f ++ txt " requested to be parsed multiple times!".

Lemma is_flag_like a : is_flag a = true <-> flag_like a.
Proof.
  unfold is_flag, flag_like. rewrite str_eqb_eq. split.
  - intros E. exists (skipn 2 a). rewrite <- E. symmetry. apply firstn_skipn.
  - intros (r & ->). reflexivity.
Qed.
Lemma check_entry_dashed a : check_entry a = if in_dec Z.eq_dec 45 (firstn 1 a) then Ok tt else Fail FAssert.
Proof.
  destruct a as [|c a]; [reflexivity|]. cbn [firstn]. unfold check_entry, assert_, MINUS. destruct (Z.eqb_spec c 45) as [->|H]; [reflexivity|].
  destruct (in_dec Z.eq_dec 45 [c]) as [[F|[]]|F]; [congruence|reflexivity].
Qed.
Lemma dashed_iff a : dashed a <-> In 45 (firstn 1 a).
Proof.
  unfold dashed. destruct a as [|c a]; cbn [firstn In].
  - split; [intros (r & E); discriminate|tauto].
  - split; [intros (r & E); injection E as -> _; auto|]. intros [->|[]]. exists a. reflexivity.
Qed.

(** The state after the items its. *)
Record entered (its : list (str * str)) (help : bool) (p : parser) : Prop := {
  en_values : holds_first its (p_values p);
  en_errors : p_errors p = map again (repeated [] (map fst its));
  en_help : p_help p = [];
  en_seen : p_seen p = [];
  en_need : p_need_help p = help
}.
Lemma enter_step its help p f v : entered its help p -> entered (its ++ [(f, v)]) help (enter f v p).
Proof.
  intros [H1 H2 H3 H4 H5]. unfold enter. destruct (m_find f (p_values p)) as [w|] eqn:E.
  - constructor; cbn; auto; [eapply holds_first_old; eauto|]. rewrite map_app. cbn [map fst]. rewrite repeated_snoc, map_app, H2. f_equal. cbn [app].
    destruct (in_dec str_dec f (map fst its)) as [_|Hn]; [reflexivity|]. exfalso. apply Hn. apply H1 in E. exact (first_value_mentioned _ _ _ E).
  - constructor; cbn; auto; [apply holds_first_new; assumption|]. rewrite map_app. cbn [map fst]. rewrite repeated_snoc, map_app, H2. cbn [app].
    destruct (in_dec str_dec f (map fst its)) as [Hi|_]; [|now rewrite app_nil_r]. exfalso. apply (holds_first_mentioned _ _ _ H1) in E. exact (E Hi).
Qed.

Lemma arg_loop_spec help its es : items es its -> forall fuel its0 p, (List.length es <= fuel)%nat -> entered its0 help p ->
  (Forall (fun it => dashed (fst it)) its /\ exists p', arg_loop fuel es p = Ok p' /\ entered (its0 ++ its) help p') \/
  (Exists (fun it => ~ dashed (fst it)) its /\ arg_loop fuel es p = Fail FAssert).
Proof.
  assert (D : forall f, {dashed f} + {~ dashed f}).
  { intros f. destruct (in_dec Z.eq_dec 45 (firstn 1 f)) as [H|H]; [left|right]; rewrite dashed_iff; exact H. }
  assert (C : forall f, check_entry f = if D f then Ok tt else Fail FAssert).
  { intros f. rewrite check_entry_dashed. destruct (D f) as [H|H]; rewrite dashed_iff in H; destruct (in_dec Z.eq_dec 45 (firstn 1 f)); tauto. }
  intros H. induction H as [|f v r its Hv Hi IH|f r its Hr Hi IH]; intros fuel its0 p Hf Hp.
  - left. split; [constructor|]. exists p. rewrite app_nil_r. split; [|exact Hp]. destruct fuel; reflexivity.
  - destruct fuel as [|fuel]; [cbn in Hf; lia|]. cbn [arg_loop]. rewrite C. destruct (D f) as [Hd|Hd]; [|right; split; [left; exact Hd|reflexivity]]. cbn [bind].
    assert (E : is_flag v = false) by (apply not_true_iff_false; rewrite is_flag_like; exact Hv). rewrite E. cbn [negb].
    destruct (IH fuel (its0 ++ [(f, v)]) (enter f v p)) as [(F & p' & E1 & E2)|(F & E1)]; [cbn in Hf; lia|apply enter_step, Hp| |].
    + left. split; [constructor; assumption|]. exists p'. rewrite <- app_assoc in E2. split; assumption.
    + right. split; [right; exact F|exact E1].
  - destruct fuel as [|fuel]; [cbn in Hf; lia|]. cbn [arg_loop]. rewrite C. destruct (D f) as [Hd|Hd]; [|right; split; [left; exact Hd|reflexivity]]. cbn [bind].
    assert (E : match r with v :: r' => if negb (is_flag v) then arg_loop fuel r' (enter f v p) else arg_loop fuel r (enter f [] p) | [] => arg_loop fuel r (enter f [] p) end
                = arg_loop fuel r (enter f [] p)). { destruct r as [|v r]; [reflexivity|]. apply is_flag_like in Hr. rewrite Hr. reflexivity. }
    rewrite E. destruct (IH fuel (its0 ++ [(f, [])]) (enter f [] p)) as [(F & p' & E1 & E2)|(F & E1)]; [cbn in Hf; lia|apply enter_step, Hp| |].
    + left. split; [constructor; assumption|]. exists p'. rewrite <- app_assoc in E2. split; assumption.
    + right. split; [right; exact F|exact E1].
Qed.

(** Every list of words reads in exactly one way. *)
Lemma items_exist es : exists its, items es its.
Proof.
  assert (G : forall n es, (List.length es <= n)%nat -> exists its, items es its); [|exact (G _ es (le_n _))].
  clear. induction n as [|n IH]; intros [|f r] H; try (cbn in H; lia); try (exists []; constructor).
  destruct r as [|v r].
  - exists [(f, [])]. apply items_alone; [exact I|constructor].
  - destruct (is_flag v) eqn:E.
    + destruct (IH (v :: r)) as (its & Hi); [cbn in *; lia|]. exists ((f, []) :: its). apply items_alone; [now apply is_flag_like|exact Hi].
    + destruct (IH r) as (its & Hi); [cbn in *; lia|]. exists ((f, v) :: its). apply items_value; [rewrite <- is_flag_like, E; discriminate|exact Hi].
Qed.
Lemma items_unique es its : items es its -> forall its', items es its' -> its = its'.
Proof.
  intros H. induction H as [|f v r its Hv Hi IH|f r its Hr Hi IH]; intros its' H'; inversion H'; subst; try reflexivity.
  - f_equal. auto.
  - contradiction.
  - contradiction.
  - f_equal. auto.
Qed.

Definition has (x : str) (l : list str) : bool := existsb (str_eqb x) l.
Lemma has_In x l : has x l = true <-> In x l.
Proof.
  unfold has. rewrite existsb_exists. split; [intros (y & H1 & H2); apply str_eqb_eq in H2; now subst|]. intros H. exists x. split; [exact H|apply str_eqb_refl].
Qed.
Lemma scan_words l : forall es0 help0,
  foldM (fun (st : list str * bool) (a : str) => let (es, help) := st in
      if str_eqb (txt "--help") a then Ok (es, true)
      else match a with [] => Fail FAssert | _ => Ok (es ++ [a], help) end) l (es0, help0) =
  if has [] l then Fail FAssert else Ok (es0 ++ remove str_dec (txt "--help") l, help0 || has (txt "--help") l).
Proof.
  induction l as [|a l IH]; intros es0 help0; cbn [foldM].
  - cbn [remove]. rewrite app_nil_r, orb_false_r. reflexivity.
  - unfold has. cbn [existsb remove]. fold (has [] l) (has (txt "--help") l). destruct (str_eqb (txt "--help") a) eqn:E.
    + apply str_eqb_eq in E. cbn [bind]. rewrite IH. subst a. destruct (str_dec (txt "--help") (txt "--help")) as [_|F]; [|congruence].
      change (str_eqb [] (txt "--help")) with false. cbn [orb]. rewrite orb_true_r. reflexivity.
    + apply str_eqb_neq in E. destruct (str_dec (txt "--help") a) as [F|_]; [congruence|]. destruct a as [|c a]; [reflexivity|].
      cbn [bind]. rewrite IH. change (str_eqb [] (c :: a)) with false. cbn [orb]. rewrite <- app_assoc. reflexivity.
Qed.

Definition help_flag (argv : list str) : bool := has (txt "--help") (tl argv).
Lemma help_flag_iff argv : help_flag argv = true <-> wants_help argv.
Proof. apply has_In. Qed.

Lemma arg_make_spec argv its : items (words argv) its -> ~ In [] (tl argv) ->
  (Forall (fun it => dashed (fst it)) its /\ exists p, arg_make argv = Ok p /\ entered its (help_flag argv) p) \/
  (Exists (fun it => ~ dashed (fst it)) its /\ arg_make argv = Fail FAssert).
Proof.
  intros Hi Hne. unfold arg_make. rewrite scan_words. destruct (has [] (tl argv)) eqn:F0; [apply has_In in F0; contradiction|]. cbn [bind orb app]. fold (help_flag argv).
  destruct holds_nil as (N1 & N2).
  assert (E0 : entered [] (help_flag argv) (Parser [] [] [] [] (help_flag argv))) by (constructor; cbn; auto).
  destruct (arg_loop_spec (help_flag argv) its (words argv) Hi (List.length (words argv)) [] _ (le_n _) E0) as [(F & p & E & Ep)|H]; [left|right; exact H].
  split; [exact F|]. exists p. split; [exact E|exact Ep].
Qed.
Lemma arg_make_empty argv : In [] (tl argv) -> arg_make argv = Fail FAssert.
Proof. intros H. unfold arg_make. rewrite scan_words. apply has_In in H. unfold str, byte in *. rewrite H. reflexivity. Qed.
Lemma arg_make_inv argv p : arg_make argv = Ok p -> exists its, items (words argv) its /\ Forall (fun it => dashed (fst it)) its /\ entered its (help_flag argv) p.
Proof.
  intros E. destruct (in_dec str_dec [] (tl argv)) as [H|H]; [rewrite (arg_make_empty argv H) in E; discriminate|].
  destruct (items_exist (words argv)) as (its & Hi). destruct (arg_make_spec argv its Hi H) as [(F & p' & E' & En)|(_ & E')]; rewrite E in E'; [|discriminate].
  injection E' as <-. exists its. auto.
Qed.

(* ---------------------------------------------------------------- calls of Parse *)

Record called (its : list (str * str)) (help : bool) (l : list call) (p : parser) : Prop := {
  ca_values : holds_first its (p_values p);
  ca_errors : p_errors p = map again (repeated [] (map fst its)) ++ map twice (repeated [] (map c_flag l));
  ca_help : holds_last (help_texts l) (p_help p);
  ca_seen : holds_first (shown_values l) (p_seen p);
  ca_need : p_need_help p = help
}.
Lemma called_nil its help p : entered its help p -> called its help [] p.
Proof.
  intros [H1 H2 H3 H4 H5]. destruct holds_nil as (N1 & N2). constructor; auto.
  - now rewrite H2, app_nil_r.
  - now rewrite H3.
  - now rewrite H4.
Qed.
Lemma note_step its help l p flag shown h : called its help l p -> called its help (l ++ [Call flag shown h]) (note flag shown (set_help flag h p)).
Proof.
  intros [H1 H2 H3 H4 H5]. unfold note, set_help. cbn [p_seen p_values p_errors p_need_help p_help].
  assert (Ek : map fst (shown_values l) = map c_flag l) by (unfold shown_values; rewrite map_map; reflexivity).
  assert (Es : shown_values (l ++ [Call flag shown h]) = shown_values l ++ [(flag, shown)]) by (unfold shown_values; now rewrite map_app).
  assert (Eh : help_texts (l ++ [Call flag shown h]) = help_texts l ++ [(flag, h)]) by (unfold help_texts; now rewrite map_app).
  destruct (m_find flag (p_seen p)) as [w|] eqn:E.
  - constructor; cbn [p_seen p_values p_errors p_need_help p_help]; auto.
    + rewrite H2, map_app. cbn [map c_flag]. rewrite repeated_snoc, map_app, <- app_assoc. cbn [app]. f_equal. f_equal.
      destruct (in_dec str_dec flag (map c_flag l)) as [_|Hn]; [reflexivity|]. exfalso. apply Hn. rewrite <- Ek. apply H4 in E. exact (first_value_mentioned _ _ _ E).
    + rewrite Eh. apply holds_last_put, H3.
    + rewrite Es. eapply holds_first_old; eauto.
  - constructor; cbn [p_seen p_values p_errors p_need_help p_help]; auto.
    + rewrite H2, map_app. cbn [map c_flag]. rewrite repeated_snoc, map_app. cbn [app]. f_equal.
      destruct (in_dec str_dec flag (map c_flag l)) as [Hi|_]; [|now rewrite app_nil_r]. exfalso. apply (holds_first_mentioned _ _ _ H4) in E. apply E. unfold mentioned. rewrite Ek. exact Hi.
    + rewrite Eh. apply holds_last_put, H3.
    + rewrite Es. apply holds_first_new; assumption.
Qed.
Lemma reached_called argv l p : reached argv l p -> exists its, items (words argv) its /\ Forall (fun it => dashed (fst it)) its /\ called its (help_flag argv) l p.
Proof.
  intros H. induction H as [p E|l p T scan fmt arg flag help _ IH|l p arg flag help _ IH].
  - destruct (arg_make_inv argv p E) as (its & H1 & H2 & H3). exists its. auto using called_nil.
  - destruct IH as (its & H1 & H2 & H3). exists its. split; [exact H1|]. split; [exact H2|]. unfold parse. cbn [fst snd]. apply note_step, H3.
  - destruct IH as (its & H1 & H2 & H3). exists its. split; [exact H1|]. split; [exact H2|]. unfold parse_bool. cbn [fst snd]. apply note_step, H3.
Qed.

Lemma reached_items argv l p its : reached argv l p -> items (words argv) its -> Forall (fun it => dashed (fst it)) its /\ called its (help_flag argv) l p.
Proof. intros H Hi. destruct (reached_called argv l p H) as (its' & H1 & H2 & H3). rewrite (items_unique _ _ Hi _ H1). auto. Qed.

Lemma parse_given argv l p its : reached argv l p -> items (words argv) its ->
  forall (T : Type) (scan : str -> T * bool * str) (fmt : T -> str) (arg : T) f help v, first_value its f v ->
  fst (parse scan fmt arg f help p) = read_arg scan v arg.
Proof.
  intros H Hi T scan fmt arg f help v Hv. destruct (reached_items argv l p its H Hi) as (_ & C). unfold parse. cbn [fst set_help p_values].
  apply (proj2 (ca_values _ _ _ _ C)) in Hv. rewrite Hv. reflexivity.
Qed.
Lemma parse_absent argv l p its : reached argv l p -> items (words argv) its ->
  forall (T : Type) (scan : str -> T * bool * str) (fmt : T -> str) (arg : T) f help, ~ mentioned its f ->
  fst (parse scan fmt arg f help p) = arg.
Proof.
  intros H Hi T scan fmt arg f help Hv. destruct (reached_items argv l p its H Hi) as (_ & C). unfold parse. cbn [fst set_help p_values].
  apply (holds_first_mentioned _ _ _ (ca_values _ _ _ _ C)) in Hv. rewrite Hv. reflexivity.
Qed.
Lemma parse_bool_toggles argv l p its : reached argv l p -> items (words argv) its -> forall (arg : bool) f help,
  (mentioned its f -> fst (parse_bool arg f help p) = negb arg) /\ (~ mentioned its f -> fst (parse_bool arg f help p) = arg).
Proof.
  intros H Hi arg f help. destruct (reached_items argv l p its H Hi) as (_ & C). unfold parse_bool. cbn [fst set_help p_values]. split; intros Hv.
  - destruct (m_find f (p_values p)) eqn:E; [reflexivity|]. apply (holds_first_mentioned _ _ _ (ca_values _ _ _ _ C)) in E. contradiction.
  - apply (holds_first_mentioned _ _ _ (ca_values _ _ _ _ C)) in Hv. rewrite Hv. reflexivity.
Qed.

Lemma read_arg_reads {T} (scan : str -> T * bool * str) w t rest x arg : white w -> reads_as scan x t -> ends rest -> read_arg scan (w ++ t ++ rest) arg = x.
Proof.
  intros Hw (H1 & H2) Hr. unfold read_arg. rewrite skip_ws_app; [|exact Hw|destruct t; [destruct H1|exact H1]].
  destruct t as [|c t]; [destruct H1|]. pose proof (H2 rest Hr) as E. cbn [app] in E |- *. rewrite E. reflexivity.
Qed.
Lemma read_arg_white {T} (scan : str -> T * bool * str) w arg : white w -> read_arg scan w arg = arg.
Proof. intros Hw. unfold read_arg. now rewrite (skip_ws_white w Hw). Qed.
Lemma word_reads w : w <> [] -> Forall (fun b => is_space b = false) w -> reads_as scan_word w w.
Proof.
  intros Hne Hw. split; [destruct w; [congruence|exact (Forall_inv Hw)]|]. intros rest Hr. unfold scan_word. rewrite span_all.
  - destruct w; [congruence|reflexivity].
  - eapply Forall_impl; [|exact Hw]. intros b Hb. cbn beta in Hb. now rewrite Hb.
  - destruct rest as [|b rest]; [exact I|]. cbn in Hr. now rewrite Hr.
Qed.

Lemma reached_errors argv l p its : reached argv l p -> items (words argv) its ->
  p_errors p = map again (repeated [] (map fst its)) ++ map twice (repeated [] (map c_flag l)).
Proof. intros H Hi. exact (ca_errors _ _ _ _ (proj2 (reached_items argv l p its H Hi))). Qed.
Lemma reached_good argv l p its : reached argv l p -> items (words argv) its ->
  (is_good p = true <-> ~ wants_help argv /\ NoDup (map fst its) /\ NoDup (map c_flag l)).
Proof.
  intros H Hi. destruct (reached_items argv l p its H Hi) as (_ & C). unfold is_good. rewrite (ca_errors _ _ _ _ C), (ca_need _ _ _ _ C), <- help_flag_iff.
  rewrite <- (repeated_nil (map fst its) []), <- (repeated_nil (map c_flag l) []) by (intros f []).
  rewrite andb_true_iff, negb_true_iff, Z.eqb_eq, zlen_app. pose proof (zlen_nonneg (map again (repeated [] (map fst its)))) as N1. pose proof (zlen_nonneg (map twice (repeated [] (map c_flag l)))) as N2.
  destruct (repeated [] (map fst its)) as [|a r1], (repeated [] (map c_flag l)) as [|b r2]; cbn [map] in *; rewrite ?zlen_cons in *;
    rewrite ?zlen_nil; destruct (help_flag argv); split; try (intros (A & B); discriminate B); try (intros (A & B & D); try discriminate B; try discriminate D; congruence); try (intros (A & _); exfalso; rewrite ?zlen_cons, ?zlen_nil in A;
      repeat match type of A with context [zlen (map ?f ?x)] => pose proof (zlen_nonneg (map f x)); generalize dependent (zlen (map f x)); intros end; lia).
  - intros _. repeat split. discriminate.
  - intros _. split; reflexivity.
Qed.

(* ---------------------------------------------------------------- output *)

Lemma show_errors_text p : show_errors p = match p_errors p with [] => [] | es => txt "Parse Errors:" ++ [NL] ++ flat_map (fun e => txt "  " ++ e ++ [NL]) es end.
Proof.
  unfold show_errors. destruct (p_errors p) as [|e es]; [reflexivity|]. rewrite zlen_cons. destruct (Z.eqb_spec (zlen es + 1) 0) as [H|_]; [pose proof (zlen_nonneg es); lia|].
  rewrite <- app_assoc. reflexivity.
Qed.

Lemma widest_fold (f : str * str -> str) l : forall w0, 0 <= w0 ->
  let w := fold_left (fun w o => Z.max w (zlen (f o))) l w0 in w0 <= w /\ Forall (fun s => zlen s <= w) (map f l) /\ (w = w0 \/ Exists (fun s => zlen s = w) (map f l)).
Proof.
  induction l as [|o l IH]; intros w0 H0; cbn [fold_left map]; [split; [lia|split; [constructor|auto]]|].
  destruct (IH (Z.max w0 (zlen (f o)))) as (H1 & H2 & H3); [lia|]. cbv zeta. split; [lia|]. split; [constructor; [lia|exact H2]|].
  destruct H3 as [H3|H3]; [|auto]. destruct (Z.max_spec w0 (zlen (f o))) as [(A & B)|(A & B)]; [right; left; lia|left; lia].
Qed.
Lemma widest_of (f : str * str -> str) l : widest (map f l) (fold_left (fun w o => Z.max w (zlen (f o))) l 0).
Proof.
  destruct (widest_fold f l 0 (Z.le_refl _)) as (H1 & H2 & H3). cbv zeta in *. destruct l as [|o l]; [left; split; reflexivity|right]. split; [exact H2|].
  destruct H3 as [H3|H3]; [|exact H3]. left. apply Forall_inv in H2. pose proof (zlen_nonneg (f o)). rewrite H3 in *. cbn [map] in *. lia.
Qed.

Lemma show_options_text argv l p : reached argv l p -> exists rows : list (str * str * str), exists w u,
  StronglySorted (fun a b => str_lt (fst (fst a)) (fst (fst b))) rows /\
  (forall f v h, In (f, v, h) rows <-> first_value (shown_values l) f v /\ last_value (help_texts l) f h) /\
  widest (map (fun r => fst (fst r)) rows) w /\ widest (map (fun r => snd (fst r)) rows) u /\
  show_options p = txt "Program Options:" ++ [NL] ++ flat_map (fun r => let '(f, v, h) := r in txt "  " ++ aligned (w + 2) f ++ aligned (u + 2) v ++ h ++ [NL]) rows.
Proof.
  intros H. destruct (reached_called argv l p H) as (its & _ & _ & C). destruct (ca_seen _ _ _ _ C) as (Ss & Hs). destruct (ca_help _ _ _ _ C) as (Sh & Hh). clear C.
  set (hf := fun f => match m_find f (p_help p) with Some h => h | None => [] end).
  set (rows := map (fun o : str * str => (fst o, snd o, hf (fst o))) (p_seen p)).
  exists rows, (fold_left (fun w (o : str * str) => Z.max w (zlen (fst o))) (p_seen p) 0), (fold_left (fun w (o : str * str) => Z.max w (zlen (snd o))) (p_seen p) 0).
  assert (Hm : forall f v, In (f, v) (p_seen p) -> last_value (help_texts l) f (hf f)).
  { intros f v Hin. apply (m_find_In f v _ Ss), Hs, first_value_mentioned in Hin. unfold hf. destruct (m_find f (p_help p)) as [h|] eqn:E; [now apply Hh|].
    exfalso. unfold mentioned, shown_values in Hin. rewrite map_map in Hin. cbn [fst] in Hin.
    assert (L : forall l, In f (map c_flag l) -> exists h, last_value (help_texts l) f h).
    { clear. intros l. induction l as [|c l IH] using rev_ind; [intros []|]. intros Hi. unfold help_texts. rewrite map_app. cbn [map]. fold (help_texts l).
      destruct (str_dec f (c_flag c)) as [->|Hn]; [exists (c_help c); apply last_value_snoc; auto|]. rewrite map_app in Hi. apply in_app_or in Hi. destruct Hi as [Hi|[Hi|[]]]; [|congruence].
      destruct (IH Hi) as (h & Hl). exists h. apply last_value_snoc. auto. }
    destruct (L l Hin) as (h & Hl). apply Hh in Hl. congruence. }
  split; [|split; [|split; [|split]]].
  - unfold rows. clear - Ss. induction Ss as [|o m Sm IH Hall]; cbn [map]; constructor; [exact IH|]. apply Forall_forall. intros r Hr. apply in_map_iff in Hr. destruct Hr as (o' & <- & Hr).
    rewrite Forall_forall in Hall. exact (Hall o' Hr).
  - intros f v h. unfold rows. rewrite in_map_iff. split.
    + intros ([f' v'] & E & Hin). cbn [fst snd] in E. injection E as <- <- <-. split; [apply Hs, (m_find_In _ _ _ Ss), Hin|]. eapply Hm, Hin.
    + intros (H1 & H2). exists (f, v). cbn [fst snd]. split; [|apply (m_find_In _ _ _ Ss), Hs, H1]. apply Hh in H2. unfold hf. now rewrite H2.
  - unfold rows. rewrite map_map. cbn [fst snd]. exact (widest_of fst (p_seen p)).
  - unfold rows. rewrite map_map. cbn [fst snd]. exact (widest_of snd (p_seen p)).
  - unfold show_options. f_equal. f_equal. unfold rows. rewrite flat_map_concat_map, flat_map_concat_map, map_map. reflexivity.
Qed.

(** ShowHelp: the flags asked for, in order, each once, with the last help text. *)
Lemma show_help_text argv l p : reached argv l p -> exists rows : list (str * str),
  StronglySorted (fun a b => str_lt (fst a) (fst b)) rows /\ (forall f h, In (f, h) rows <-> last_value (help_texts l) f h) /\
  show_help p = txt "Program Help:" ++ [NL] ++ flat_map (fun r => txt "  " ++ fst r ++ [SP] ++ snd r ++ [NL]) rows.
Proof.
  intros H. destruct (reached_called argv l p H) as (its & _ & _ & C). destruct (ca_help _ _ _ _ C) as (Sh & Hh). exists (p_help p). split; [exact Sh|]. split; [|reflexivity].
  intros f h. rewrite <- Hh. symmetry. apply m_find_In, Sh.
Qed.

(* ---------------------------------------------------------------- timer *)

Lemma clicked_all start t0 cl : clicked start t0 cl = (if start then [t0] else []) ++ cl.
Proof.
  unfold clicked, timer_make, timer_click. set (a := if start then [t0] else []). clearbody a. revert a. induction cl as [|c cl IH]; intros a; cbn [fold_left]; [now rewrite app_nil_r|].
  rewrite IH, <- app_assoc. reflexivity.
Qed.

Section Timer.
Context {S : scalar} (seconds : Z -> car S).

Lemma timer_lap_ok ts i : 0 <= i < zlen ts - 1 -> timer_lap (S := S) seconds ts i = Ok (seconds (zn 0 ts (i + 1) - zn 0 ts i)).
Proof.
  intros H. unfold timer_lap. destruct (Z.leb_spec 0 i); [|lia]. destruct (Z.ltb_spec i (zlen ts - 1)); [|lia]. cbn [assert_ bind].
  rewrite (get_ok 0 ts (i + 1)), (get_ok 0 ts i) by lia. reflexivity.
Qed.
Lemma timer_lap_bad ts i : ~ (0 <= i < zlen ts - 1) -> timer_lap (S := S) seconds ts i = Fail FAssert.
Proof. intros H. unfold timer_lap. destruct (Z.leb_spec 0 i); [|reflexivity]. destruct (Z.ltb_spec i (zlen ts - 1)); [lia|reflexivity]. Qed.
Lemma timer_total_short ts : zlen ts < 2 -> timer_total (S := S) seconds ts = Ok s0.
Proof. intros H. unfold timer_total. destruct (Z.ltb_spec (zlen ts) 2); [reflexivity|lia]. Qed.
Lemma timer_total_ok ts : 2 <= zlen ts -> timer_total (S := S) seconds ts = Ok (seconds (zn 0 ts (zlen ts - 1) - zn 0 ts 0)).
Proof.
  intros H. unfold timer_total. destruct (Z.ltb_spec (zlen ts) 2); [lia|]. rewrite (get_ok 0 ts (zlen ts - 1)), (get_ok 0 ts 0) by lia. reflexivity.
Qed.

(** Laps and total. *)
Lemma timer_sum (R : ring_laws S) ts : seconds 0 = s0 -> (forall a b, seconds (a + b) = sadd (seconds a) (seconds b)) ->
  exists laps total, (forall i, 0 <= i < zlen ts - 1 -> timer_lap seconds ts i = Ok (laps i)) /\ timer_total seconds ts = Ok total /\
    sum_range 0 (zlen ts - 1) laps = total.
Proof.
  intros H0 H. exists (fun i => seconds (zn 0 ts (i + 1) - zn 0 ts i)).
  assert (G : forall n, 0 <= n -> sum_range 0 n (fun i => seconds (zn 0 ts (i + 1) - zn 0 ts i)) = seconds (zn 0 ts n - zn 0 ts 0)).
  { intros n Hn. pattern n. apply natlike_ind; [| |exact Hn].
    - rewrite sum_range_empty by lia. now rewrite Z.sub_diag.
    - intros k Hk IH. rewrite <- Z.add_1_r, (sum_range_last R) by lia. rewrite IH, <- H. f_equal. lia. }
  destruct (Z_lt_ge_dec (zlen ts) 2) as [Hs|Hs].
  - exists s0. split; [intros i Hi; lia|]. split; [apply timer_total_short, Hs|]. apply sum_range_empty. lia.
  - eexists. split; [intros i Hi; apply timer_lap_ok, Hi|]. split; [apply timer_total_ok; lia|]. apply G. lia.
Qed.
Lemma timer_nonneg ts : monotone ts -> sle (s0 : car S) s0 -> (forall d, 0 <= d -> sle s0 (seconds d)) ->
  (forall i x, timer_lap seconds ts i = Ok x -> sle s0 x) /\ (forall x, timer_total seconds ts = Ok x -> sle s0 x).
Proof.
  intros Hm H00 H. split.
  - intros i x E. destruct (Z_le_gt_dec 0 i); [destruct (Z_lt_ge_dec i (zlen ts - 1))|]; [|rewrite timer_lap_bad in E by lia; discriminate|rewrite timer_lap_bad in E by lia; discriminate].
    rewrite timer_lap_ok in E by lia. injection E as <-. apply H. specialize (Hm i (i + 1) ltac:(lia) ltac:(lia)). lia.
  - intros x E. destruct (Z_lt_ge_dec (zlen ts) 2) as [Hs|Hs].
    + rewrite timer_total_short in E by lia. injection E as <-. exact H00.
    + rewrite timer_total_ok in E by lia. injection E as <-. apply H. specialize (Hm 0 (zlen ts - 1) ltac:(lia) ltac:(lia)). lia.
Qed.
End Timer.

(* ---------------------------------------------------------------- in the form of the properties *)

Lemma construction argv : exists its, items (words argv) its /\ (forall its', items (words argv) its' -> its = its') /\
  ((exists p, arg_make argv = Ok p) <-> (~ In [] (tl argv) /\ Forall (fun it => dashed (fst it)) its)) /\
  ((~ exists p, arg_make argv = Ok p) -> arg_make argv = Fail FAssert).
Proof.
  destruct (items_exist (words argv)) as (its & Hi). exists its. split; [exact Hi|]. split; [exact (items_unique _ _ Hi)|].
  destruct (in_dec str_dec [] (tl argv)) as [H|H].
  - pose proof (arg_make_empty argv H) as E. rewrite E. split; [|auto]. split; [intros (p & F); discriminate|]. intros (F & _). contradiction.
  - destruct (arg_make_spec argv its Hi H) as [(F & p & E & _)|(F & E)]; rewrite E.
    + split; [|intros N; exfalso; apply N; eauto]. split; [auto|]. intros _. eauto.
    + split; [|auto]. split; [intros (p & G); discriminate|]. intros (_ & G). exfalso. rewrite Exists_exists in F. rewrite Forall_forall in G. destruct F as (x & Hx & Hn). auto.
Qed.
Lemma parse_value argv l p its : reached argv l p -> items (words argv) its ->
  forall (T : Type) (scan : str -> T * bool * str) (fmt : T -> str) (arg x : T) (f help v w t rest : str),
  first_value its f v -> v = w ++ t ++ rest -> white w -> reads_as scan x t -> ends rest ->
  fst (parse scan fmt arg f help p) = x.
Proof. intros H Hi T scan fmt arg x f help v w t rest Hv -> Hw Ht Hr. rewrite (parse_given argv l p its H Hi T scan fmt arg f help _ Hv). apply read_arg_reads; assumption. Qed.
Lemma parse_untouched argv l p its : reached argv l p -> items (words argv) its ->
  forall (T : Type) (scan : str -> T * bool * str) (fmt : T -> str) (arg : T) (f help : str),
  ~ mentioned its f \/ (exists v, first_value its f v /\ white v) -> fst (parse scan fmt arg f help p) = arg.
Proof.
  intros H Hi T scan fmt arg f help [Hn|(v & Hv & Hw)]; [eapply parse_absent; eauto|]. rewrite (parse_given argv l p its H Hi T scan fmt arg f help v Hv). apply read_arg_white, Hw.
Qed.
Lemma errors_shown argv l p its : reached argv l p -> items (words argv) its ->
  let errors := map (fun f => f ++ txt " entered multiple times!") (repeated [] (map fst its)) ++
                map (fun f => f ++ txt " requested to be parsed multiple times!") (repeated [] (map c_flag l)) in
  show_errors p = match errors with [] => [] | _ => txt "Parse Errors:" ++ [NL] ++ flat_map (fun e => txt "  " ++ e ++ [NL]) errors end.
Proof. intros H Hi. cbv zeta. rewrite show_errors_text, (reached_errors argv l p its H Hi). unfold again, twice. destruct (_ ++ _); reflexivity. Qed.
Lemma laps_checked (S : scalar) (seconds : Z -> car S) start t0 cl i :
  (exists x, timer_lap seconds (clicked start t0 cl) i = Ok x) <-> 0 <= i < zlen ((if start then [t0] else []) ++ cl) - 1.
Proof.
  rewrite clicked_all. set (ts := _ ++ cl). split.
  - intros (x & E). destruct (Z_le_gt_dec 0 i); [destruct (Z_lt_ge_dec i (zlen ts - 1)); [lia|]|]; rewrite timer_lap_bad in E by lia; discriminate.
  - intros H. eexists. apply timer_lap_ok, H.
Qed.
