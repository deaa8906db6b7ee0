(** More proofs about members when memory runs out: markers, CooMatrix, LilMatrix, Vector and copies. *)

From Coq Require Import ZArith List Bool Lia.
From Verif Require Import Base Scalar Spec Dense Sparse Coo Lil LoopFacts DenseFacts Alloc AllocSpec AllocProofs.
Import ListNotations.
Open Scope Z_scope.

(* ----------------------------------------------------- writes to a marker *)

Definition mark (cols : list Z) (ks : list Z) (mk : list Z) : res (list Z) :=
  foldM (fun mk i => c <- get cols i ;; set mk c i) ks mk.

(** What the writes leave depends at the written positions only on the writes. *)
Lemma mark_zn cols ks : forall mk mk1, mark cols ks mk = Ok mk1 ->
  zlen mk1 = zlen mk /\
  forall p, 0 <= p < zlen mk ->
    (~ (exists i, In i ks /\ get cols i = Ok p) -> zn 0 mk1 p = zn 0 mk p) /\
    ((exists i, In i ks /\ get cols i = Ok p) -> forall mk' mk1', zlen mk' = zlen mk -> mark cols ks mk' = Ok mk1' -> zn 0 mk1' p = zn 0 mk1 p).
Proof.
  induction ks as [|i ks IH]; intros mk mk1 H; cbn in H.
  - injection H as <-. split; [reflexivity|]. intros p Hp. split; [reflexivity|]. intros (i & [] & _).
  - destruct (get cols i) as [c|e] eqn:Ec; cbn [bind] in H; [|discriminate].
    destruct (set mk c i) as [mk2|e] eqn:Es; cbn [bind] in H; [|discriminate].
    apply set_Ok_inv in Es. destruct Es as (Hc & ->). destruct (IH _ _ H) as (L & P). rewrite zlen_upd in L, P. split; [exact L|].
    intros p Hp. destruct (P p Hp) as (P1 & P2). split.
    + intros N. rewrite P1.
      * rewrite zn_upd by lia. destruct (Z.eqb_spec p c); [|reflexivity]. subst. exfalso. apply N. exists i. cbn. auto.
      * intros (i' & I1 & I2). apply N. exists i'. cbn. auto.
    + intros W mk' mk1' L' H'. cbn in H'. rewrite Ec in H'. cbn [bind] in H'.
      destruct (set mk' c i) as [mk2|e] eqn:Es; cbn [bind] in H'; [|discriminate].
      apply set_Ok_inv in Es. destruct Es as (Hc' & ->).
      destruct (IH _ _ H') as (L2 & Q). rewrite zlen_upd in L2, Q.
      assert (D : (exists i0, In i0 ks /\ get cols i0 = Ok p) \/ ~ (exists i0, In i0 ks /\ get cols i0 = Ok p)).
      { clear. induction ks as [|a ks IH]; [right; intros (? & [] & _)|].
        destruct IH as [(i0 & I1 & I2)|N]; [left; exists i0; cbn; auto|].
        destruct (get cols a) as [q|] eqn:E.
        - destruct (Z.eq_dec q p); [subst; left; exists a; cbn; auto|]. right. intros (i0 & [->|I1] & I2); [congruence|]. apply N. eauto.
        - right. intros (i0 & [->|I1] & I2); [congruence|]. apply N. eauto. }
      destruct D as [D|D].
      * apply (P2 D (upd mk' (Z.to_nat c) i)); [rewrite zlen_upd; lia|exact H'].
      * assert (Hp' : 0 <= p < zlen mk') by lia. destruct (Q p Hp') as (Q1 & _). rewrite Q1 by exact D. rewrite P1 by exact D.
        rewrite !zn_upd by lia. destruct (Z.eqb_spec p c) as [|Npc]; [reflexivity|]. exfalso.
        (* p is written by i or by ks: the latter is excluded *)
        destruct W as (i0 & [<-|I1] & I2).
        -- congruence.
        -- apply D. eauto.
Qed.

Lemma mark_total cols ks : forall mk mk1 mk', mark cols ks mk = Ok mk1 -> zlen mk' = zlen mk -> exists mk1', mark cols ks mk' = Ok mk1'.
Proof.
  induction ks as [|i ks IH]; intros mk mk1 mk' H L; cbn in *; [eauto|].
  destruct (get cols i) as [c|e]; cbn [bind] in *; [|discriminate].
  destruct (set mk c i) as [mk2|e] eqn:Es; cbn [bind] in H; [|discriminate].
  apply set_Ok_inv in Es. destruct Es as (Hc & ->). rewrite set_ok by lia. cbn [bind].
  eapply IH; [exact H|]. rewrite !zlen_upd. exact L.
Qed.

Lemma mark_again cols ks mk mk1 : mark cols ks mk = Ok mk1 -> mark cols ks mk1 = Ok mk1.
Proof.
  intros H. destruct (mark_zn cols ks mk mk1 H) as (L & P).
  destruct (mark_total cols ks mk mk1 mk1 H L) as (mk2 & H2). rewrite H2. f_equal.
  destruct (mark_zn cols ks mk1 mk2 H2) as (L2 & P2).
  apply (list_ext 0); [exact L2|]. intros p Hp. rewrite L2 in Hp.
  assert (D : (exists i0, In i0 ks /\ get cols i0 = Ok p) \/ ~ (exists i0, In i0 ks /\ get cols i0 = Ok p)).
  { clear. induction ks as [|a ks IH]; [right; intros (? & [] & _)|].
    destruct IH as [(i0 & I1 & I2)|N]; [left; exists i0; cbn; auto|].
    destruct (get cols a) as [q|] eqn:E.
    - destruct (Z.eq_dec q p); [subst; left; exists a; cbn; auto|]. right. intros (i0 & [->|I1] & I2); [congruence|]. apply N. eauto.
    - right. intros (i0 & [->|I1] & I2); [congruence|]. apply N. eauto. }
  destruct D as [D|D].
  - rewrite L in Hp. destruct (P p Hp) as (_ & Q). apply (Q D mk1); [exact L|exact H2].
  - now apply P2.
Qed.

(** Resetting the positions [cols] of a marker that was all -1 before the writes. *)
Lemma reset_zn cols : forall mk mk1, foldM (fun mk i => set mk i (-1)) cols mk = Ok mk1 ->
  zlen mk1 = zlen mk /\ forall p, 0 <= p < zlen mk -> (In p cols -> zn 0 mk1 p = -1) /\ (~ In p cols -> zn 0 mk1 p = zn 0 mk p).
Proof.
  induction cols as [|c cols IH]; intros mk mk1 H; cbn in H.
  - injection H as <-. split; [reflexivity|]. intros p Hp. split; [intros []|reflexivity].
  - destruct (set mk c (-1)) as [mk2|e] eqn:Es; cbn [bind] in H; [|discriminate].
    apply set_Ok_inv in Es. destruct Es as (Hc & ->). destruct (IH _ _ H) as (L & P). rewrite zlen_upd in L, P. split; [exact L|].
    intros p Hp. destruct (P p Hp) as (P1 & P2). destruct (in_dec Z.eq_dec p cols) as [I|N].
    + split; [intros _; auto|]. intros N. exfalso. apply N. now right.
    + rewrite P2 by exact N. rewrite zn_upd by lia. split.
      * intros [->|I]; [now rewrite Z.eqb_refl|contradiction].
      * intros N2. destruct (Z.eqb_spec p c); [|reflexivity]. subst. exfalso. apply N2. now left.
Qed.

Lemma reset_total cols : forall mk, (forall c, In c cols -> 0 <= c < zlen mk) -> exists mk1, foldM (fun mk i => set mk i (-1)) cols mk = Ok mk1.
Proof.
  induction cols as [|c cols IH]; intros mk H; cbn; [eauto|]. rewrite set_ok by (apply H; now left). cbn [bind].
  apply IH. intros c' I. rewrite zlen_upd. apply H. now right.
Qed.

Section AllocMore.
Context {S : scalar}.
Notation T := (car S).

Lemma mark_cols_in cols mk mk1 : mark cols (zrange 0 (zlen cols)) mk = Ok mk1 -> forall c, In c cols -> 0 <= c < zlen mk.
Proof.
  intros H c I. apply In_zn with (d := 0) in I. destruct I as (i & Hi & <-).
  assert (G : forall ks mk mk1, mark cols ks mk = Ok mk1 -> In i ks -> 0 <= zn 0 cols i < zlen mk).
  { clear - Hi. induction ks as [|a ks IH]; intros mk mk1 H I; [destruct I|]. cbn in H.
    destruct (get cols a) as [c|e] eqn:Ec; cbn [bind] in H; [|discriminate].
    destruct (set mk c a) as [mk2|e] eqn:Es; cbn [bind] in H; [|discriminate].
    apply set_Ok_inv in Es. destruct Es as (Hc & ->). destruct I as [->|I].
    - rewrite (get_ok 0) in Ec by exact Hi. injection Ec as <-. exact Hc.
    - specialize (IH _ _ H I). rewrite zlen_upd in IH. exact IH. }
  apply (G _ _ _ H). apply In_zrange. lia.
Qed.

Lemma submatrix_ok (A : csr S) rows cols m n marker :
  match a_submatrix A rows cols m n marker with
  | Done B marker' _ => sp_submatrix A rows cols marker = Ok (B, marker')
  | BadAlloc marker' _ =>
      sp_submatrix A rows cols marker' = sp_submatrix A rows cols marker /\
      (forall p, 0 <= p < zlen marker -> ~ In p cols -> zn 0 marker' p = zn 0 marker p) /\
      ((forall k, In k marker -> k = -1) -> (forall c, In c cols -> 0 <= c < zlen marker) ->
       foldM (fun marker i => set marker i (-1)) cols marker' = Ok marker)
  | Failed e => sp_submatrix A rows cols marker = Fail e
  | Terminated => False
  end /\
  (ample m -> forall marker' n', a_submatrix A rows cols m n marker <> BadAlloc marker' n').
Proof.
  assert (HR : sp_submatrix A rows cols marker = sp_submatrix A rows cols marker) by reflexivity.
  unfold sp_submatrix at 1 in HR. revert HR. unfold a_submatrix, a_bind, a_this, a_lift, a_write.
  destruct (assert_ (c_cols A <=? zlen marker)) as [[]|e] eqn:E1; cbn [bind]; [|intros <-; split; [reflexivity|discriminate]].
  destruct (@reads_vec (list Z) Z (zlen rows + 1) 0) as [V V'].
  assert (V1 := V m n marker). assert (V2 := V' m n marker).
  destruct (a_vec (zlen rows + 1) 0 m n marker) as [ip mk n1|mk n1|e|].
  - destruct V1 as [-> V1]. rewrite V1. cbn [bind].
    destruct (set ip 0 0) as [ip1|e] eqn:E2; cbn [bind]; [|intros <-; split; [reflexivity|discriminate]].
    change (for_ 0 (zlen cols) marker (fun i marker0 => c <- get cols i;; set marker0 c i)) with (mark cols (zrange 0 (zlen cols)) marker) in *.
    destruct (mark cols (zrange 0 (zlen cols)) marker) as [mk|e] eqn:Em; cbn [bind]; [|intros <-; split; [reflexivity|discriminate]].
    match goal with |- context [for_ 0 (zlen rows) (ip1, 0) ?b] => destruct (for_ 0 (zlen rows) (ip1, 0) b) as [[ip2 nn]|e] eqn:Ef end;
      cbn [bind]; [|intros <-; split; [reflexivity|discriminate]].
    assert (BAD : (sp_submatrix A rows cols mk = sp_submatrix A rows cols marker) /\
      (forall p, 0 <= p < zlen marker -> ~ In p cols -> zn 0 mk p = zn 0 marker p) /\
      ((forall k, In k marker -> k = -1) -> (forall c, In c cols -> 0 <= c < zlen marker) ->
       foldM (fun marker i => set marker i (-1)) cols mk = Ok marker)).
    { destruct (mark_zn cols _ _ _ Em) as (L & P).
      assert (P1 : forall p, 0 <= p < zlen marker -> ~ In p cols -> zn 0 mk p = zn 0 marker p).
      { intros p Hp N. apply (P p Hp). intros (i & I & G). apply (get_Ok_inv 0) in G. destruct G as (Hi & ->). apply N. now apply zn_In. }
      split; [|split; [exact P1|]].
      - unfold sp_submatrix. rewrite L.
        change (for_ 0 (zlen cols) marker (fun i marker0 => c <- get cols i;; set marker0 c i)) with (mark cols (zrange 0 (zlen cols)) marker).
        change (for_ 0 (zlen cols) mk (fun i marker0 => c <- get cols i;; set marker0 c i)) with (mark cols (zrange 0 (zlen cols)) mk).
        rewrite (mark_again _ _ _ _ Em), Em. reflexivity.
      - intros AL IC. destruct (reset_total cols mk) as (mk1 & R); [intros c I; rewrite L; now apply IC|].
        rewrite R. f_equal. destruct (reset_zn cols mk mk1 R) as (L1 & Q). apply (list_ext 0); [lia|]. intros p Hp.
        assert (Hp' : 0 <= p < zlen mk) by lia. destruct (Q p Hp') as (Q1 & Q2).
        assert (Hm : zn 0 marker p = -1) by (apply AL; apply zn_In; lia).
        destruct (in_dec Z.eq_dec p cols) as [I|N]; [rewrite Q1, Hm by exact I; reflexivity|].
        rewrite Q2 by exact N. apply P1; [lia|exact N]. }
    destruct (@reads_vec (list Z) Z nn 0) as [W W']. assert (W1 := W m n1 mk). assert (W2 := W' m n1 mk).
    destruct (a_vec nn 0 m n1 mk) as [ix mk' n2|mk' n2|e|]; cbn beta iota.
    + destruct W1 as [-> W1]. rewrite W1. cbn [bind].
      destruct (@reads_vec (list Z) T nn s0) as [U U']. assert (U1 := U m n2 mk). assert (U2 := U' m n2 mk).
      destruct (a_vec nn s0 m n2 mk) as [d mk' n3|mk' n3|e|]; cbn beta iota.
      * destruct U1 as [-> U1]. rewrite U1. cbn [bind].
        match goal with |- context [foldM ?b rows (ix, d, 0)] => destruct (foldM b rows (ix, d, 0)) as [[[ix' d'] tot]|e] eqn:Eg end;
          cbn [bind]; [|intros <-; split; [reflexivity|discriminate]].
        match goal with |- context [foldM ?b cols mk] => destruct (foldM b cols mk) as [mk2|e] eqn:Eh end;
          cbn [bind]; [|intros <-; split; [reflexivity|discriminate]].
        destruct (sp_make ip2 ix' d' (zlen rows) (zlen cols)); cbn [bind]; (intros <-; split; [reflexivity|discriminate]).
      * subst mk'. intros HR. split; [exact BAD|]. intros Hm. exfalso. now apply (U2 mk n3).
      * rewrite U1. cbn [bind]. intros <-. split; [reflexivity|discriminate].
      * destruct U1.
    + subst mk'. intros HR. split; [exact BAD|]. intros Hm. exfalso. now apply (W2 mk n2).
    + rewrite W1. cbn [bind]. intros <-. split; [reflexivity|discriminate].
    + destruct W1.
  - subst mk. intros HR. split.
    + split; [reflexivity|]. split; [reflexivity|]. intros AL IC. destruct (reset_total cols marker IC) as (mk1 & R). rewrite R. f_equal.
      destruct (reset_zn cols marker mk1 R) as (L1 & Q). apply (list_ext 0); [lia|]. intros p Hp.
      assert (Hp' : 0 <= p < zlen marker) by lia. destruct (Q p Hp') as (Q1 & Q2).
      destruct (in_dec Z.eq_dec p cols) as [I|N]; [rewrite Q1 by exact I; symmetry; apply AL; now apply zn_In|auto].
    + intros Hm. exfalso. now apply (V2 marker n1).
  - rewrite V1. cbn [bind]. intros <-. split; [reflexivity|discriminate].
  - destruct V1.
Qed.

Lemma foldM_pres {St X} (P : St -> Prop) (f : St -> X -> res St) l :
  (forall s x s', P s -> f s x = Ok s' -> P s') -> forall s s', P s -> foldM f l s = Ok s' -> P s'.
Proof.
  intros F. induction l as [|x l IH]; intros s s' Ps H; cbn in H; [injection H as <-; exact Ps|].
  destruct (f s x) as [s1|e] eqn:E; cbn [bind] in H; [|discriminate]. eapply IH; [|exact H]. eapply F; eauto.
Qed.

Lemma mark_val cols ks : forall mk mk1, mark cols ks mk = Ok mk1 ->
  forall p, 0 <= p < zlen mk -> In (zn 0 mk p) ks \/ (exists i, In i ks /\ get cols i = Ok p) -> In (zn 0 mk1 p) ks.
Proof.
  assert (G : forall ks ks0 mk mk1, incl ks ks0 -> mark cols ks mk = Ok mk1 ->
    forall p, 0 <= p < zlen mk -> In (zn 0 mk p) ks0 \/ (exists i, In i ks /\ get cols i = Ok p) -> In (zn 0 mk1 p) ks0).
  { clear. induction ks as [|i ks IH]; intros ks0 mk mk1 IN H p Hp W; cbn in H.
    - injection H as <-. destruct W as [W|(i & [] & _)]. exact W.
    - destruct (get cols i) as [c|e] eqn:Ec; cbn [bind] in H; [|discriminate].
      destruct (set mk c i) as [mk2|e] eqn:Es; cbn [bind] in H; [|discriminate].
      apply set_Ok_inv in Es. destruct Es as (Hc & ->).
      apply (IH ks0 _ _ (fun a h => IN a (or_intror h)) H p); [now rewrite zlen_upd|].
      rewrite zn_upd by lia. destruct (Z.eqb_spec p c) as [->|N].
      + left. apply IN. now left.
      + destruct W as [W|(i0 & [<-|I1] & I2)]; [now left|congruence|]. right. eauto. }
  intros mk mk1 H p Hp W. apply (G ks ks mk mk1); auto. apply incl_refl.
Qed.

(** If the sub-matrix has an entry and the second request fails, the marker is left written. *)
Lemma submatrix_marker_dirty (A : csr S) rows cols m n marker B marker' :
  sp_submatrix A rows cols marker = Ok (B, marker') -> 0 < zlen (c_idx B) ->
  m n = true -> m (Datatypes.S n) = false ->
  exists mk n', a_submatrix A rows cols m n marker = BadAlloc mk n' /\ forall c, In c cols -> 0 <= zn 0 mk c.
Proof.
  unfold sp_submatrix.
  destruct (assert_ (c_cols A <=? zlen marker)) as [[]|e] eqn:E1; cbn [bind]; [|discriminate].
  destruct (vec (zlen rows + 1) 0) as [ip|e] eqn:EV; cbn [bind]; [|discriminate].
  destruct (set ip 0 0) as [ip1|e] eqn:E2; cbn [bind]; [|discriminate].
  change (for_ 0 (zlen cols) marker (fun i marker0 => c <- get cols i;; set marker0 c i)) with (mark cols (zrange 0 (zlen cols)) marker) in *.
  destruct (mark cols (zrange 0 (zlen cols)) marker) as [mk|e] eqn:Em; cbn [bind]; [|discriminate].
  match goal with |- context [for_ 0 (zlen rows) (ip1, 0) ?b] => destruct (for_ 0 (zlen rows) (ip1, 0) b) as [[ip2 nn]|e] eqn:Ef end;
    cbn [bind]; [|discriminate].
  destruct (vec nn 0) as [ix|e] eqn:EW; cbn [bind]; [|discriminate].
  destruct (vec nn s0) as [d|e] eqn:EU; cbn [bind]; [|discriminate].
  match goal with |- context [foldM ?b rows (ix, d, 0)] => destruct (foldM b rows (ix, d, 0)) as [[[ix' d'] tot]|e] eqn:Eg end;
    cbn [bind]; [|discriminate].
  match goal with |- context [foldM ?b cols mk] => destruct (foldM b cols mk) as [mk2|e] eqn:Eh end;
    cbn [bind]; [|discriminate].
  destruct (sp_make ip2 ix' d' (zlen rows) (zlen cols)) as [B0|e] eqn:EB; cbn [bind]; [|discriminate].
  intros HB HN M1 M2. injection HB as -> ->.
  assert (EI : c_idx B = ix').
  { unfold sp_make in EB. repeat match type of EB with context [assert_ ?b] => destruct b; cbn [assert_ bind] in EB; try discriminate end.
    repeat match type of EB with context [bind ?b _] => destruct b; cbn [bind] in EB; try discriminate end.
    injection EB as <-. reflexivity. }
  assert (LX : zlen ix' = zlen ix).
  { refine (foldM_pres (fun s => zlen (fst (fst s)) = zlen ix) _ _ _ _ _ _ Eg); [|reflexivity].
    clear. intros [[x1 d1] t1] row [[x2 d2] t2]. cbn [fst]. intros P. 
    destruct (get (c_ptr A) row) as [lo|]; cbn [bind]; [|discriminate]. destruct (get (c_ptr A) (row + 1)) as [hi|]; cbn [bind]; [|discriminate].
    intros H. refine (foldM_pres (fun s => zlen (fst (fst s)) = zlen ix) _ _ _ _ _ _ H); [|exact P].
    clear. intros [[x1 d1] t1] j [[x2 d2] t2]. cbn [fst]. intros P.
    destruct (get (c_idx A) j) as [c|]; cbn [bind]; [|discriminate]. destruct (get mk c) as [k|]; cbn [bind]; [|discriminate].
    destruct (k =? -1); [intros H; injection H as <- <- <-; exact P|].
    destruct (set x1 t1 k) as [x3|] eqn:E; cbn [bind]; [|discriminate]. apply set_Ok_inv in E. destruct E as (_ & ->).
    destruct (get (c_val A) j) as [v|]; cbn [bind]; [|discriminate]. destruct (set d1 t1 v) as [d3|]; cbn [bind]; [|discriminate].
    intros H. injection H as <- <- <-. now rewrite zlen_upd. }
  assert (LN : 0 < nn).
  { unfold vec in EW. destruct (Z.ltb_spec nn 0); [discriminate|]. injection EW as <-. rewrite zlen_repeat in LX. rewrite <- EI in LX. lia. }
  pose proof (zlen_nonneg rows).
  exists mk, (Datatypes.S (Datatypes.S n)). split.
  - unfold a_submatrix, a_vec. unfold a_bind, a_this, a_lift, a_write, a_ret, a_request. rewrite E1. cbn beta iota. rewrite EV. cbn beta iota.
    destruct (Z.leb_spec (zlen rows + 1) 0); [lia|]. rewrite M1. cbn beta iota. rewrite E2. cbn beta iota.
    change (for_ 0 (zlen cols) marker (fun i marker0 => c <- get cols i;; set marker0 c i)) with (mark cols (zrange 0 (zlen cols)) marker).
    rewrite Em. cbn beta iota. rewrite Ef. cbn beta iota. rewrite EW. cbn beta iota. destruct (Z.leb_spec nn 0); [lia|]. rewrite M2. reflexivity.
  - intros c Hc.
  pose proof (mark_cols_in _ _ _ Em c Hc) as Hr. apply In_zn with (d := 0) in Hc. destruct Hc as (i & Hi & E).
  assert (W : In (zn 0 mk c) (zrange 0 (zlen cols))).
  { apply (mark_val _ _ _ _ Em c Hr). right. exists i. split; [apply In_zrange; lia|]. rewrite (get_ok 0) by exact Hi. now rewrite E. }
  apply In_zrange in W. lia.
Qed.

(* --------------------------------------------------------------- CooMatrix *)

Lemma coo_add_aon i j v : all_or_nothing (a_coo_add i j v) (fun M : coo S => coo_add M i j v).
Proof.
  eapply aon_ext.
  - unfold a_coo_add. apply aon_bind; [apply reads_this|]. intros M.
    apply aon_bind; [apply reads_lift|]. intros ?u. apply aon_bind; [apply reads_lift|]. intros ?u.
    apply aon_bind; [apply reads_lift|]. intros ?u. apply aon_bind; [apply reads_lift|]. intros ?u.
    apply aon_bind; [apply reads_request|]. intros ?u. apply aon_write.
  - intros M. reflexivity.
Qed.

Lemma append_nil (M : coo S) : append M [] = M.
Proof. unfold append. rewrite app_nil_r. now destruct M. Qed.
Lemma append_app (M : coo S) es es' : append (append M es) es' = append M (es ++ es').
Proof. unfold append. cbn. now rewrite app_assoc. Qed.

Definition adds (x : act (coo S) unit) (es : list (entry S)) : Prop := forall m n M,
  match x m n M with
  | Done _ M' _ => M' = append M es
  | BadAlloc M' _ => ~ ample m /\ exists k, (k < length es)%nat /\ M' = append M (firstn k es)
  | Failed e => e = FAssert
  | Terminated => False
  end.

Lemma adds_add i j v : adds (a_coo_add i j v) [(i, j, v)].
Proof.
  intros m n M. destruct (coo_add_aon i j v) as [X X']. specialize (X m n M). specialize (X' m n M).
  destruct (a_coo_add i j v m n M) as [u M' k|M' k|e|].
  - unfold coo_add in X. repeat match type of X with context [assert_ ?b] => destruct b; cbn [assert_ bind] in X; try discriminate end;
      destruct (o_set M) eqn:E; cbn [assert_ bind] in X; try discriminate;
      repeat match type of X with context [assert_ ?b] => destruct b; cbn [assert_ bind] in X; try discriminate end;
      injection X as <-; unfold append; rewrite E; reflexivity.
  - subst M'. split; [intros A; now apply (X' M k)|]. exists 0%nat. cbn. split; [lia|]. now rewrite append_nil.
  - unfold coo_add in X. repeat match type of X with context [assert_ ?b] => destruct b; cbn [assert_ bind] in X; try congruence end;
      destruct (o_set M) eqn:E; cbn [assert_ bind] in X; try congruence;
      repeat match type of X with context [assert_ ?b] => destruct b; cbn [assert_ bind] in X; try congruence end.
  - destruct X.
Qed.

Lemma adds_ret u : adds (a_ret u) [].
Proof. intros m n M. cbn. now rewrite append_nil. Qed.

Lemma adds_bind (x : act (coo S) unit) y es es' : adds x es -> (forall u, adds (y u) es') -> adds (a_bind x y) (es ++ es').
Proof.
  intros X Y m n M. unfold a_bind. specialize (X m n M). destruct (x m n M) as [u M' k|M' k|e|]; auto.
  - subst M'. specialize (Y u m k (append M es)). destruct (y u m k (append M es)) as [w M2 k2|M2 k2|e|]; auto.
    + subst. apply append_app.
    + destruct Y as (A & j & Hj & ->). split; [exact A|]. exists (length es + j)%nat. rewrite app_length. split; [lia|].
      rewrite append_app. f_equal. rewrite firstn_app, (firstn_all2 (n := (length es + j)%nat) es) by lia. do 2 f_equal. lia.
  - destruct X as (A & j & Hj & ->). split; [exact A|]. exists j. rewrite app_length. split; [lia|]. f_equal. rewrite firstn_app.
    replace (j - length es)%nat with 0%nat by lia. cbn. now rewrite app_nil_r.
Qed.

Lemma adds_lift {A} (r : res A) a y es : r = Ok a -> adds (y a) es -> adds (a_bind (a_lift r) y) es.
Proof. intros -> Y m n M. apply (Y m n M). Qed.

Lemma adds_assert (b : bool) y es : (b = true -> adds (y tt) es) -> adds (a_bind (a_lift (assert_ b)) y) es.
Proof. intros Y m n M. destruct b; cbn; [|reflexivity]. apply (Y eq_refl m n M). Qed.

Lemma adds_fold {X} (f : X -> act (coo S) unit) g l : (forall x, In x l -> adds (f x) (g x)) ->
  adds (a_fold (fun _ x => f x) l tt) (flat_map g l).
Proof.
  induction l as [|x l IH]; intros H; cbn [a_fold flat_map]; [apply adds_ret|].
  apply adds_bind; [apply H; now left|]. intros []. apply IH. intros y Hy. apply H. now right.
Qed.

Lemma coo_block_adds rows cols (f : T -> T) values : dense_ok values -> adds (a_coo_add_dense rows cols f values) (block_entries rows cols f values).
Proof.
  intros D. unfold a_coo_add_dense. apply adds_assert. intros Hr. apply adds_assert. intros Hc. apply Z.eqb_eq in Hr, Hc.
  unfold a_for, block_entries. apply (adds_fold (fun j => _) (fun j => _)). intros j Hj. apply In_zrange in Hj.
  apply (adds_lift _ (zn 0 cols j)); [apply get_ok; lia|].
  replace (map _ _) with (flat_map (fun i => [(zn 0 rows i, zn 0 cols j, f (dense_mat values i j))]) (zrange 0 (d_rows values))).
  2:{ generalize (zrange 0 (d_rows values)). induction l; cbn; [reflexivity|]. now f_equal. }
  apply (adds_fold (fun i => _) (fun i => _)). intros i Hi. apply In_zrange in Hi.
  apply (adds_lift _ (zn 0 rows i)); [apply get_ok; lia|].
  apply (adds_lift _ (dense_mat values i j)); [apply d_get_ok; auto; lia|]. apply adds_add.
Qed.

Lemma coo_sym_adds i j (v : T) : adds (a_coo_add_sym i j v) ((i, j, v) :: if i =? j then [] else [(j, i, v)]).
Proof.
  unfold a_coo_add_sym. apply (adds_bind _ _ [(i, j, v)] (if i =? j then [] else [(j, i, v)])); [apply adds_add|]. intros u. destruct (i =? j); cbn [negb]; [apply adds_ret|apply adds_add].
Qed.

Lemma coo_sym_half i j (v : T) (M : coo S) m n :
  i <> j -> 0 <= i -> 0 <= j -> seqb v v = true -> (o_set M = true -> i < o_rows M /\ j < o_cols M /\ j < o_rows M /\ i < o_cols M) ->
  m n = true -> m (Datatypes.S n) = false ->
  exists M' n', a_coo_add_sym i j v m n M = BadAlloc M' n' /\ o_entries M' = o_entries M ++ [(i, j, v)].
Proof.
  intros N Hi Hj Hv Hs M1 M2. exists (append M [(i, j, v)]), (Datatypes.S (Datatypes.S n)). split; [|reflexivity].
  unfold a_coo_add_sym. destruct (Z.eqb_spec i j); [contradiction|]. cbn [negb].
  unfold a_coo_add, a_bind, a_this, a_lift, a_write, a_request.
  pose proof (zlen_nonneg (o_entries M)).
  destruct (Z.leb_spec 0 i), (Z.leb_spec 0 j); try lia. rewrite Hv. cbn [assert_].
  destruct (o_set M) eqn:E.
  - destruct (Hs eq_refl) as (A1 & A2 & A3 & A4). destruct (Z.ltb_spec i (o_rows M)), (Z.ltb_spec j (o_cols M)); try lia. cbn [assert_ bind].
    destruct (Z.leb_spec (zlen (o_entries M) + 1) 0); [lia|]. rewrite M1. cbn [o_set o_rows o_cols o_entries].
    destruct (Z.ltb_spec j (o_rows M)), (Z.ltb_spec i (o_cols M)); try lia. cbn [assert_ bind].
    rewrite zlen_app, zlen_cons, zlen_nil. destruct (Z.leb_spec (zlen (o_entries M) + (0 + 1) + 1) 0); [lia|]. rewrite M2.
    unfold append. now rewrite E.
  - destruct (Z.leb_spec (zlen (o_entries M) + 1) 0); [lia|]. rewrite M1. cbn [o_set o_rows o_cols o_entries].
    rewrite zlen_app, zlen_cons, zlen_nil. destruct (Z.leb_spec (zlen (o_entries M) + (0 + 1) + 1) 0); [lia|]. rewrite M2.
    unfold append. now rewrite E.
Qed.

(* --------------------------------------------------------------- LilMatrix *)

Lemma zn_grow (ls : list (list (Z * T))) k r : 0 <= r -> zn [] (grow_lists ls k) r = zn [] ls r.
Proof.
  intros Hr. unfold grow_lists. unfold zn. destruct (Nat.lt_ge_cases (Z.to_nat r) (length ls)).
  - now apply app_nth1.
  - rewrite app_nth2 by lia. rewrite (nth_overflow ls) by lia. apply nth_repeat.
Qed.

Lemma zlen_grow (ls : list (list (Z * T))) k : zlen ls <= k -> zlen (grow_lists ls k) = k.
Proof. intros H. unfold grow_lists. rewrite zlen_app, zlen_repeat. lia. Qed.

Lemma lil_add_alloc i j (v : T) (M : lil S) m n :
  match a_lil_add i j v m n M with
  | Done _ M' _ => lil_add M i j v = Ok M'
  | BadAlloc M' _ => ~ ample m /\ l_rows M' = l_rows M /\ l_cols M' = l_cols M /\ l_set M' = l_set M /\
      (forall r, 0 <= r -> zn [] (l_lists M') r = zn [] (l_lists M) r) /\
      (zlen (l_lists M') = zlen (l_lists M) \/ l_set M = false /\ zlen (l_lists M') = Z.max (zlen (l_lists M)) (i + 1)) /\
      lil_add M' i j v = lil_add M i j v
  | Failed e => lil_add M i j v = Fail e
  | Terminated => False
  end.
Proof.
  unfold a_lil_add, a_grow, a_bind, a_this, a_lift, a_write, a_request, a_ret.
  assert (HR : lil_add M i j v = lil_add M i j v) by reflexivity. unfold lil_add at 1 in HR. revert HR.
  destruct (Z.leb_spec 0 i); cbn [assert_ bind]; [|intros <-; reflexivity].
  destruct (Z.leb_spec 0 j); cbn [assert_ bind]; [|intros <-; reflexivity].
  destruct (seqb v v) eqn:Ev; cbn [assert_ bind]; [|intros <-; reflexivity].
  destruct (l_set M) eqn:Es.
  - destruct (Z.ltb_spec i (l_rows M)); cbn [assert_ bind]; [|intros <-; reflexivity].
    destruct (Z.ltb_spec j (l_cols M)); cbn [assert_ bind]; [|intros <-; reflexivity].
    destruct (get (l_lists M) i) as [row|e] eqn:Eg; cbn [bind]; [|intros <-; reflexivity].
    cbn [Z.leb Z.compare]. destruct (m n) eqn:Em.
    + destruct (set (l_lists M) i ((j, v) :: row)) as [ls|e] eqn:E2; cbn [bind]; intros <-; [|reflexivity]. now rewrite Es.
    + intros _. split; [intros A; rewrite A in Em; discriminate|auto 10].
  - destruct (Z.leb_spec (zlen (l_lists M)) i) as [Hl|Hl].
    + cbn [l_lists]. destruct (Z.ltb_spec (zlen (l_lists M)) (i + 1)); [|lia]. destruct (Z.leb_spec (i + 1) 0); [lia|].
      destruct (m n) eqn:Em; cbn beta iota.
      2:{ intros _. split; [intros A; rewrite A in Em; discriminate|auto 10]. }
      cbn [l_lists l_rows l_cols l_set bind].
      destruct (get (grow_lists (l_lists M) (i + 1)) i) as [row|e] eqn:Eg; cbn [bind]; [|intros <-; reflexivity].
      cbn [Z.leb Z.compare]. destruct (m (Datatypes.S n)) eqn:Em2.
      * destruct (set (grow_lists (l_lists M) (i + 1)) i ((j, v) :: row)) as [ls|e] eqn:E2; cbn [bind]; intros <-; reflexivity.
      * intros HR. cbn [l_rows l_cols l_set l_lists]. split; [intros A; rewrite A in Em2; discriminate|].
        repeat split; auto.
        -- intros r Hr. now apply zn_grow.
        -- right. split; [reflexivity|]. rewrite zlen_grow by lia. lia.
        -- rewrite <- HR. unfold lil_add. cbn [l_rows l_cols l_set l_lists].
           destruct (Z.leb_spec 0 i); [|lia]. destruct (Z.leb_spec 0 j); [|lia]. rewrite Ev. cbn [assert_ bind].
           rewrite zlen_grow by lia. destruct (Z.leb_spec (i + 1) i); [lia|]. cbn [bind]. rewrite Eg. reflexivity.
    + cbn [bind]. destruct (get (l_lists M) i) as [row|e] eqn:Eg; cbn [bind]; [|intros <-; reflexivity].
      cbn [Z.leb Z.compare]. destruct (m n) eqn:Em.
      * destruct (set (l_lists M) i ((j, v) :: row)) as [ls|e] eqn:E2; cbn [bind]; intros <-; [|reflexivity]. now rewrite Es.
      * intros _. split; [intros A; rewrite A in Em; discriminate|auto 10].
Qed.

Lemma lil_add_grows i j (v : T) (M : lil S) m n :
  0 <= j -> seqb v v = true -> l_set M = false -> zlen (l_lists M) <= i ->
  m n = true -> m (Datatypes.S n) = false ->
  exists M' n', a_lil_add i j v m n M = BadAlloc M' n' /\ fst (lil_find_size M') > fst (lil_find_size M).
Proof.
  intros Hj Hv Hs Hl M1 M2. pose proof (zlen_nonneg (l_lists M)).
  exists (Lil (l_rows M) (l_cols M) (l_set M) (grow_lists (l_lists M) (i + 1))), (Datatypes.S (Datatypes.S n)).
  split.
  - unfold a_lil_add, a_grow, a_bind, a_this, a_lift, a_write, a_request, a_ret.
    destruct (Z.leb_spec 0 i), (Z.leb_spec 0 j); try lia. rewrite Hv, Hs. cbn [assert_].
    destruct (Z.leb_spec (zlen (l_lists M)) i); [|lia]. destruct (Z.ltb_spec (zlen (l_lists M)) (i + 1)); [|lia].
    destruct (Z.leb_spec (i + 1) 0); [lia|]. rewrite M1. cbn [l_lists].
    rewrite (get_ok []) by (rewrite zlen_grow; lia). cbn [Z.leb Z.compare]. rewrite M2. reflexivity.
  - unfold lil_find_size. cbn [l_set l_lists]. rewrite Hs. cbn [fst]. rewrite zlen_grow; lia.
Qed.

(* ------------------------------------------------------- Vector and copies *)

Lemma vec_set_size_aon size (val : T) :
  all_or_nothing (a_vec_set_size size val)
    (fun V => if size =? v_size V then Ok V else assert_ (0 <=? size) ;;; Ok (Vct (resize (v_data V) size val) size)).
Proof.
  split.
  - intros m n V. unfold a_vec_set_size, a_bind, a_this, a_lift, a_write, a_ret. destruct (size =? v_size V); [reflexivity|].
    destruct (0 <=? size); cbn [assert_ bind]; [|reflexivity].
    destruct (@reads_grow (vector (S := S)) (zlen (v_data V)) size) as [G _]. specialize (G m n V).
    destruct (a_grow (zlen (v_data V)) size m n V); auto. discriminate.
  - intros m n V V' n' A. unfold a_vec_set_size, a_bind, a_this, a_lift, a_write, a_ret. destruct (size =? v_size V); [discriminate|].
    destruct (0 <=? size); cbn [assert_ bind]; [|discriminate].
    destruct (@reads_grow (vector (S := S)) (zlen (v_data V)) size) as [_ G]. specialize (G m n V).
    destruct (a_grow (zlen (v_data V)) size m n V) as [| s k | |]; try discriminate. exfalso. now apply (G s k).
Qed.

Lemma noexcept_never {St A} (x : act St A) m n s s' n' : a_noexcept x m n s <> BadAlloc s' n'.
Proof. unfold a_noexcept. destruct (x m n s); discriminate. Qed.

Lemma vec_assign_ok (x : list T) m n V :
  a_vec_assign x m n V =
  if (zlen (v_data V) <? zlen x) && negb (m n) then Terminated
  else Done tt (Vct x (zlen x)) (if zlen (v_data V) <? zlen x then Datatypes.S n else n).
Proof.
  unfold a_vec_assign, a_noexcept, a_bind, a_this, a_write, a_grow, a_request, a_ret.
  pose proof (zlen_nonneg (v_data V)). destruct (Z.ltb_spec (zlen (v_data V)) (zlen x)); cbn [andb]; [|reflexivity].
  destruct (Z.leb_spec (zlen x) 0); [lia|]. destruct (m n); reflexivity.
Qed.

Lemma copy_ok (A B : csr S) m n :
  (exists k, a_copy A m n B = Done tt A k) \/ (~ ample m /\ a_copy A m n B = Terminated).
Proof.
  unfold a_copy, a_noexcept, a_bind, a_write.
  assert (R : forall k n0, (exists n1, a_request k m n0 B = Done tt B n1) \/ (~ ample m /\ exists n1, a_request k m n0 B = BadAlloc B n1)).
  { intros k n0. unfold a_request. destruct (k <=? 0); [eauto|]. destruct (m n0) eqn:E; [eauto|]. right. split; [intros H; rewrite H in E; discriminate|eauto]. }
  destruct (R (zlen (c_ptr A)) n) as [(n1 & ->)|(N & n1 & ->)]; [|auto].
  destruct (R (zlen (c_idx A)) n1) as [(n2 & ->)|(N & n2 & ->)]; [|auto].
  destruct (R (zlen (c_val A)) n2) as [(n3 & ->)|(N & n3 & ->)]; [|auto].
  left. cbn. eauto.
Qed.

Lemma copy_terminates (A B : csr S) m n : 0 < zlen (c_ptr A) -> m n = false -> a_copy A m n B = Terminated.
Proof.
  intros H E. unfold a_copy, a_noexcept, a_bind, a_request. destruct (Z.leb_spec (zlen (c_ptr A)) 0); [lia|]. now rewrite E.
Qed.

End AllocMore.
