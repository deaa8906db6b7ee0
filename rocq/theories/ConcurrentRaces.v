(** Members that write the object they are called on race with themselves. *)

From Coq Require Import ZArith List Bool Lia.
From Verif Require Import Base Scalar Spec Sparse LoopFacts HistoryProofs LifeProofs Threads ThreadProofs Concurrent ConcurrentSpec ConcurrentProofs.
Import ListNotations.
Open Scope Z_scope.

(** p reads until it is q. *)
Inductive reads {V B} (m : mem V) : prog V B -> prog V B -> Prop :=
| reads_here p : reads m p p
| reads_more x i k v q : m_get m x i = Ok v -> reads m (k v) q -> reads m (Rd x i k) q.

Section Races.
Context {V A : Type}.
Implicit Types (m : mem V) (p q : prog V A) (pool : list (prog V A)).

Lemma reads_bind {B C} m (p q : prog V B) (f : B -> prog V C) : reads m p q -> reads m (pbind p f) (pbind q f).
Proof. intros H. induction H as [p|x i k v q E H IH]; [constructor|]. cbn [pbind]. econstructor; eauto. Qed.
Lemma reads_trans {B} m (p q r : prog V B) : reads m p q -> reads m q r -> reads m p r.
Proof. intros H. induction H; auto. intros H2. econstructor; eauto. Qed.

Definition check_one pool t p (s : Z) : res unit := q <- get pool s ;; if negb (s =? t) && conflict p q then Fail FUB else Ok tt.

Lemma check_cases pool t p l : Forall (fun i => 0 <= i < zlen pool) l ->
  foldM (fun (_ : unit) s => check_one pool t p s) l tt = Ok tt \/ foldM (fun (_ : unit) s => check_one pool t p s) l tt = Fail FUB.
Proof.
  induction l as [|i l IH]; intros F; [now left|]. apply Forall_cons_iff in F as (F1 & F). cbn [foldM]. unfold check_one at 1 3.
  rewrite (get_ok p) by exact F1. cbn [bind]. destruct (_ && _); cbn [bind]; [now right|]. now apply IH.
Qed.

Lemma check_conflict pool s t p q l : Forall (fun i => 0 <= i < zlen pool) l -> In s l -> s <> t -> get pool s = Ok q -> conflict p q = true ->
  foldM (fun (_ : unit) s => check_one pool t p s) l tt = Fail FUB.
Proof.
  intros F I N E C. induction l as [|i l IH]; [destruct I|]. apply Forall_cons_iff in F as (F1 & F). cbn [foldM].
  destruct I as [->|I].
  - unfold check_one at 1. rewrite E. cbn [bind]. apply Z.eqb_neq in N. now rewrite N, C.
  - unfold check_one at 1. rewrite (get_ok p) by exact F1. cbn [bind]. destruct (_ && _); cbn [bind]; [reflexivity|]. now apply IH.
Qed.

Lemma all_threads pool : Forall (fun i => 0 <= i < zlen pool) (zrange 0 (zlen pool)).
Proof. apply Forall_forall. intros i Hi. now apply In_zrange. Qed.

(** A thread that only reads can be driven on, unless there is a race already. *)
Lemma drive m p q : reads m p q -> exists n, forall pool t, get pool t = Ok p ->
  foldM step (repeat t n) (pool, m) = Fail FUB \/ foldM step (repeat t n) (pool, m) = Ok (upd pool (Z.to_nat t) q, m).
Proof.
  intros H. induction H as [p|x i k v q E H (n & IH)].
  - exists 0%nat. intros pool t G. right. cbn. apply (get_Ok_inv p) in G. destruct G as (B & G). rewrite G at 1. now rewrite upd_self.
  - exists (Datatypes.S n). intros pool t G. cbn [repeat foldM]. pose proof G as G'. apply (get_Ok_inv (Rd x i k)) in G'. destruct G' as (B & _).
    assert (SS : step (pool, m) t = Fail FUB \/ step (pool, m) t = Ok (upd pool (Z.to_nat t) (k v), m)).
    { unfold step. destruct (Z.leb_spec 0 t); [|lia]. destruct (Z.ltb_spec t (zlen pool)); [|lia]. cbn [andb]. rewrite G. cbn [bind].
      destruct (check_cases pool t (Rd x i k) _ (all_threads pool)) as [K|K]; unfold for_; unfold check_one in K; rewrite K; cbn [bind]; [|now left].
      right. rewrite E. cbn [bind]. now rewrite set_ok by exact B. }
    destruct SS as [SS|SS]; rewrite SS; cbn [bind]; [now left|].
    destruct (IH (upd pool (Z.to_nat t) (k v)) t) as [D|D].
    + rewrite get_upd_eq by exact B. now rewrite Z.eqb_refl.
    + now left.
    + right. rewrite D. now rewrite upd_upd.
Qed.

Lemma race m p p' a i v v' k k' : reads m p (Wr a i v k) -> reads m p' (Wr a i v' k') -> exists sched, par_phase sched [p; p'] m = Fail FUB.
Proof.
  intros H H'. destruct (drive m p _ H) as (n & D). destruct (drive m p' _ H') as (n' & D').
  exists (repeat 0 n ++ repeat 1 n' ++ [0]). unfold par_phase. rewrite foldM_app.
  destruct (D [p; p'] 0 eq_refl) as [E|E]; rewrite E; cbn [bind]; [reflexivity|]. rewrite foldM_app.
  destruct (D' (upd [p; p'] (Z.to_nat 0) (Wr a i v k)) 1 eq_refl) as [E'|E']; rewrite E'; cbn [bind]; [reflexivity|].
  change (upd (upd [p; p'] (Z.to_nat 0) (Wr a i v k)) (Z.to_nat 1) (Wr a i v' k')) with [Wr a i v k; Wr a i v' k'].
  cbn [foldM]. unfold step. change (0 <=? 0) with true. change (0 <? zlen [Wr a i v k; Wr a i v' k']) with true. cbn [andb].
  change (get [Wr a i v k; Wr a i v' k'] 0) with (Ok (Wr a i v k)). cbn [bind].
  assert (CC : conflict (Wr a i v k) (Wr a i v' k') = true) by (unfold conflict; cbn [next]; now rewrite !Z.eqb_refl).
  pose proof (check_conflict [Wr a i v k; Wr a i v' k'] 1 0 (Wr a i v k) (Wr a i v' k') _ (all_threads _) ltac:(apply In_zrange; change (0 <= 1 < 2); lia) ltac:(lia) eq_refl CC) as C.
  unfold check_one in C. unfold for_. rewrite C. reflexivity.
Qed.
End Races.

Section Members.
Context {S : scalar}.
Notation T := (car S).
Notation cell := (cell S).
Implicit Types (m : mem cell) (A : csr S).

Lemma reads_int m x i z : m_get m x i = Ok (CI z) -> reads m (rd_int x i) (Ret z).
Proof. intros H. econstructor; [exact H|]. constructor. Qed.
Lemma reads_val m x i z : m_get m x i = Ok (CV z) -> reads m (rd_val x i) (Ret z).
Proof. intros H. econstructor; [exact H|]. constructor. Qed.

Lemma reads_then {B C} m (p : prog cell B) b (f : B -> prog cell C) q : reads m p (Ret b) -> reads m (f b) q -> reads m (pbind p f) q.
Proof. intros H H2. eapply reads_trans; [apply reads_bind; exact H|]. exact H2. Qed.
Lemma reads_write {B C} m (p : prog cell B) a i v k (f : B -> prog cell C) : reads m p (Wr a i v k) -> reads m (pbind p f) (Wr a i v (pbind k f)).
Proof. intros H. exact (reads_bind m p _ f H). Qed.

(** A loop that only reads *)
Lemma reads_for {St} m lo hi (f : Z -> St -> prog cell St) (body : Z -> St -> res St) :
  (forall i s s', lo <= i < hi -> body i s = Ok s' -> reads m (f i s) (Ret s')) ->
  forall s s', for_ lo hi s body = Ok s' -> reads m (pfor lo hi s f) (Ret s').
Proof.
  unfold for_, pfor. intros H. assert (G : Forall (fun i => lo <= i < hi) (zrange lo hi)) by (apply Forall_forall; intros i; apply In_zrange).
  induction G as [|i l Hi G IH]; intros s s' E; cbn in *.
  - injection E as <-. constructor.
  - apply bind_Ok in E. destruct E as (s1 & E1 & E2). eapply reads_then; [apply H; eauto|]. now apply IH.
Qed.

Lemma mult_first_write m M A X x n y0 y Y : is_matrix_at m M A -> is_vector_at m X x -> sp_mult A x y0 = Ok y -> 0 < zlen y0 -> n = zlen y0 ->
  exists v k, reads m (t_mult M X (zlen x) Y n) (Wr Y 0 v k).
Proof.
  intros HM HX E HY ->. unfold sp_mult in E. apply bind_Ok in E. destruct E as ([] & E1 & E). apply bind_Ok in E. destruct E as ([] & E2 & E).
  pose proof HM as (RW & CL & _ & _ & _ & HP & HI & HV). unfold t_mult. rewrite <- RW, <- CL, E1, E2. cbn [lift pbind].
  apply assert_Ok, Z.eqb_eq in E2. unfold for_ in E. unfold pfor at 1. rewrite zrange_cons in E |- * by lia. cbn [foldM pfold] in *.
  apply bind_Ok in E. destruct E as (s1 & E & _).
  apply bind_Ok in E. destruct E as (lo & B1 & E). apply bind_Ok in E. destruct E as (hi & B2 & E). apply bind_Ok in E. destruct E as (v & B3 & _).
  eexists _, _. apply reads_write. eapply reads_then; [apply reads_int; eapply m_get_map; eauto|]. eapply reads_then; [apply reads_int; eapply m_get_map; eauto|].
  eapply reads_then; [eapply reads_for; [|exact B3]|].
  - intros j a a' Hj B. cbn beta in B. apply bind_Ok in B. destruct B as (d & C1 & B). apply bind_Ok in B. destruct B as (c & C2 & B). apply bind_Ok in B. destruct B as (xc & C3 & B).
    injection B as <-. eapply reads_then; [apply reads_val; eapply m_get_map; eauto|]. eapply reads_then; [apply reads_int; eapply m_get_map; eauto|].
    eapply reads_then; [apply reads_val; eapply m_get_map; eauto|]. constructor.
  - constructor.
Qed.

Lemma pcg_race {R} m M A X x X' x' Ap ap y y' (k k' : prog cell R) :
  is_matrix_at m M A -> is_vector_at m X x -> is_vector_at m X' x' -> zlen ap = c_rows A -> 0 < c_rows A ->
  sp_mult A x ap = Ok y -> sp_mult A x' ap = Ok y' -> exists sched, par_phase sched [t_pcg M X Ap k; t_pcg M X' Ap k'] m = Fail FUB.
Proof.
  intros HM HX HX' Ha Hr E E'. unfold t_pcg. pose proof HM as (RW & CL & _).
  assert (ZX : s_cols M = zlen x). { unfold sp_mult in E. apply bind_Ok in E. destruct E as ([] & E & _). apply assert_Ok, Z.eqb_eq in E. congruence. }
  assert (ZX' : s_cols M = zlen x'). { unfold sp_mult in E'. apply bind_Ok in E'. destruct E' as ([] & E' & _). apply assert_Ok, Z.eqb_eq in E'. congruence. }
  destruct (mult_first_write m M A X x (s_rows M) ap y Ap HM HX E ltac:(lia) ltac:(congruence)) as (v & q & H).
  destruct (mult_first_write m M A X' x' (s_rows M) ap y' Ap HM HX' E' ltac:(lia) ltac:(congruence)) as (v' & q' & H').
  eapply race; [rewrite ZX; apply reads_write; exact H|]. rewrite ZX'. apply reads_write. exact H'.
Qed.

Lemma minres_race {R} m w n (k k' : prog cell R) : 0 < n -> exists sched, par_phase sched [t_minres w n k; t_minres w n k'] m = Fail FUB.
Proof.
  intros Hn. unfold t_minres. eapply race; apply reads_write; unfold pfor; rewrite zrange_cons by lia; cbn [pfold]; apply reads_write; constructor.
Qed.

Lemma blockop_race {R} m X x X' x' w n (k k' : prog cell R) : is_vector_at m X x -> is_vector_at m X' x' -> 0 < n <= zlen x -> n <= zlen x' ->
  exists sched, par_phase sched [t_blockop X w n k; t_blockop X' w n k'] m = Fail FUB.
Proof.
  intros HX HX' Hn Hn'. unfold t_blockop.
  eapply race; apply reads_write; unfold pfor; rewrite zrange_cons by lia; cbn [pfold]; apply reads_write.
  - eapply reads_then; [apply reads_val; eapply m_get_map; [exact HX|apply (get_ok s0); lia]|constructor].
  - eapply reads_then; [apply reads_val; eapply m_get_map; [exact HX'|apply (get_ok s0); lia]|constructor].
Qed.

Lemma row_cells_get (row : list (Z * T)) i p : get row i = Ok p -> get (row_cells row) (2 * i) = Ok (CI (fst p)) /\ get (row_cells row) (2 * i + 1) = Ok (CV (snd p)).
Proof.
  intros H. apply get_range in H. destruct H as (B & H). unfold get. destruct (Z.ltb_spec (2 * i) 0); [lia|]. destruct (Z.ltb_spec (2 * i + 1) 0); [lia|].
  replace (Z.to_nat (2 * i)) with (2 * Z.to_nat i)%nat by lia. replace (Z.to_nat (2 * i + 1)) with (2 * Z.to_nat i + 1)%nat by lia.
  clear - H. revert H. generalize (Z.to_nat i) as n. induction row as [|q row IH]; intros n H; [destruct n; discriminate|].
  destruct n as [|n]; cbn in H.
  - injection H as ->. now split.
  - destruct (IH n H) as (H1 & H2). replace (2 * Datatypes.S n)%nat with (Datatypes.S (Datatypes.S (2 * n))) by lia. split; [exact H1|exact H2].
Qed.

Lemma lil_first_write {R} m L row srt (k : prog cell R) : get m L = Ok (row_cells row) -> zlen (srt row) = zlen row ->
  (exists i p q, get row i = Ok p /\ get (srt row) i = Ok q /\ moved p q = true) ->
  exists a v, forall k : prog cell R, exists q, reads m (t_lil_row L (zlen row) srt k) (Wr L a v q).
Proof.
  intros HL HS HD.
  set (body := fun (i : Z) (_ : unit) => '(c, v) <~ lift (get row i) ;; '(c', v') <~ lift (get (srt row) i) ;;
    (if c =? c' then Ret tt else wr L (2 * i) (CI c')) ~;; (if seqb v v' then Ret tt else wr (V := cell) L (2 * i + 1) (CV v'))).
  assert (G : exists a v q, reads m (pfor 0 (zlen row) tt body) (Wr L a v q)).
  { destruct HD as (i & p & q & Hp & Hq & HD). apply (get_Ok_inv p) in Hp as Hi. destruct Hi as (Hi & _). unfold pfor.
    assert (I : In i (zrange 0 (zlen row))) by now apply In_zrange.
    assert (F : Forall (fun i => 0 <= i < zlen row) (zrange 0 (zlen row))) by (apply Forall_forall; intros j; apply In_zrange).
    induction F as [|j l Hj F IH]; [destruct I|]. cbn [pfold]. unfold body at 1.
    rewrite (get_ok p row j) by lia. rewrite (get_ok p (srt row) j) by lia. cbn [lift pbind].
    destruct (zn p row j) as (c & v) eqn:E1, (zn p (srt row) j) as (c' & v') eqn:E2.
    destruct (c =? c') eqn:EC; [destruct (seqb v v') eqn:EV|]; cbn [pbind].
    - destruct I as [->|I].
      + exfalso. apply (get_Ok_inv p) in Hp, Hq. destruct Hp as (_ & Hp), Hq as (_ & Hq). rewrite E1 in Hp. rewrite E2 in Hq.
        rewrite Hp, Hq in HD. unfold moved in HD. cbn [fst snd] in HD. rewrite EC, EV in HD. discriminate HD.
      + destruct (IH I) as (a & w & r & H). exists a, w, r. exact H.
    - eexists _, _, _. cbn. constructor.
    - eexists _, _, _. cbn. constructor. }
  destruct G as (a & v & q & G). exists a, v. intros k0. eexists. unfold t_lil_row.
  eapply reads_then; [eapply reads_for; [|exact (for_collect row)]|].
  - intros i s s' Hi B. apply bind_Ok in B. destruct B as (p & B1 & B). injection B as <-. destruct (row_cells_get row i p B1) as (H1 & H2).
    eapply reads_then; [apply reads_int; unfold m_get; rewrite HL; exact H1|]. eapply reads_then; [apply reads_val; unfold m_get; rewrite HL; exact H2|].
    destruct p. constructor.
  - apply reads_write. exact G.
Qed.

Lemma lil_race {R} m L row srt (k k' : prog cell R) : get m L = Ok (row_cells row) -> zlen (srt row) = zlen row ->
  (exists i p q, get row i = Ok p /\ get (srt row) i = Ok q /\ moved p q = true) ->
  exists sched, par_phase sched [t_lil_row L (zlen row) srt k; t_lil_row L (zlen row) srt k'] m = Fail FUB.
Proof.
  intros HL HS HD. destruct (lil_first_write (R := R) m L row srt k HL HS HD) as (a & v & H). destruct (H k) as (q & H1). destruct (H k') as (q' & H2).
  exact (race m _ _ _ _ _ _ _ _ H1 H2).
Qed.
End Members.
