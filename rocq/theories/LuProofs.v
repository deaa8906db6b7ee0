(** Gaussian elimination and triangular solves. *)

From Coq Require Import ZArith List Bool Lia Ring Field_theory.
From Verif Require Import Base Scalar Spec SumFacts LoopFacts Dense DenseFacts SolverSpec LuQr LuQrSpec.
Import ListNotations.
Open Scope Z_scope.

Section Shapes.
Context {S : scalar}.
Notation T := (car S).

Lemma x_get_ok (x : list T) i : 0 <= i < zlen x -> x_get x i = Ok (vec_of x i).
Proof. intros H. unfold x_get. destruct (Z.ltb_spec i (zlen x)); [|lia]. cbn. now apply get_ok. Qed.
Lemma x_set_ok (x : list T) i t : 0 <= i < zlen x -> x_set x i t = Ok (upd x (Z.to_nat i) t).
Proof. intros H. unfold x_set. destruct (Z.ltb_spec i (zlen x)); [|lia]. cbn. now apply set_ok. Qed.

Lemma vec_upd (x : list T) i t k : 0 <= i < zlen x -> 0 <= k < zlen x -> vec_of (upd x (Z.to_nat i) t) k = if k =? i then t else vec_of x k.
Proof. intros Hi Hk. unfold vec_of. now rewrite zn_upd by lia. Qed.

Lemma is_dense_get m n (D : dense S) i j : is_dense m n D -> 0 <= i < m -> 0 <= j < n -> d_get D i j = Ok (dense_mat D i j).
Proof. intros (K & <- & <-) Hi Hj. now apply d_get_ok. Qed.
Lemma is_dense_set m n (D : dense S) i j v : is_dense m n D -> 0 <= i < m -> 0 <= j < n ->
  exists E, d_set D i j v = Ok E /\ is_dense m n E /\
    forall a b, 0 <= a < m -> 0 <= b < n -> dense_mat E a b = if (a =? i) && (b =? j) then v else dense_mat D a b.
Proof.
  intros (K & R & C) Hi Hj. exists (dset D i j v). subst m n. split; [now apply d_set_ok|]. split.
  - split; [now apply dset_ok|]. split; reflexivity.
  - intros a b Ha Hb. now apply dset_mat.
Qed.
Lemma is_dense_mod m n (D : dense S) i j f : is_dense m n D -> 0 <= i < m -> 0 <= j < n ->
  exists E, d_mod D i j f = Ok E /\ is_dense m n E /\
    forall a b, 0 <= a < m -> 0 <= b < n -> dense_mat E a b = if (a =? i) && (b =? j) then f (dense_mat D i j) else dense_mat D a b.
Proof. intros K Hi Hj. unfold d_mod. rewrite (is_dense_get _ _ _ _ _ K Hi Hj). cbn. now apply is_dense_set. Qed.

End Shapes.

Section Lu.
Context {S : scalar}.
Notation T := (car S).
Context (F : field_laws S).
Let R : ring_laws S := field_ring S F.
Let Rth : ring_theory (@s0 S) s1 sadd smul ssub sopp (@eq (car S)) := R.
Add Ring SRingLu : Rth.

Lemma div_mul (a b : T) : b <> s0 -> smul (sdiv a b) b = a.
Proof.
  intros Hb. rewrite (Fdiv_def F a b). pose proof (Finv_l F b Hb) as Hi. cbv beta in Hi.
  transitivity (smul a (smul (sdiv s1 b) b)); [ring|]. rewrite Hi. ring.
Qed.
Lemma mul_zero (a b : T) : smul a b = s0 -> b <> s0 -> a = s0.
Proof.
  intros H Hb. pose proof (Finv_l F b Hb) as Hi. cbv beta in Hi.
  transitivity (smul a (smul (sdiv s1 b) b)); [rewrite Hi; ring|]. transitivity (smul (smul a b) (sdiv s1 b)); [ring|]. rewrite H. ring.
Qed.
Lemma mul_eq (a b c : T) : smul a c = smul b c -> c <> s0 -> a = b.
Proof.
  intros H Hc. assert (E : ssub a b = s0).
  { apply (mul_zero _ c); [|exact Hc]. transitivity (ssub (smul a c) (smul b c)); [ring|]. rewrite H. ring. }
  transitivity (sadd (ssub a b) b); [ring|]. rewrite E. ring.
Qed.

(* ---------------------------------------------------------------- elimination *)

Variable n : Z.
Notation sq := (is_dense n n).

(** U(j, k) -= a * U(i, k) for i <= k < n *)
Lemma eliminate_row (U : dense S) i j (a : T) : sq U -> 0 <= i < n -> 0 <= j < n -> i <> j ->
  returns (for_ i n U (fun k U => uik <- d_get U i k ;; d_mod U j k (fun u => ssub u (smul a uik))))
    (fun U' => sq U' /\ forall r c, 0 <= r < n -> 0 <= c < n ->
       dense_mat U' r c = if (r =? j) && (i <=? c) then ssub (dense_mat U j c) (smul a (dense_mat U i c)) else dense_mat U r c).
Proof.
  intros HU Hi Hj Hne.
  apply (returns_for (fun k V => sq V /\ forall r c, 0 <= r < n -> 0 <= c < n ->
     dense_mat V r c = if (r =? j) && (i <=? c) && (c <? k) then ssub (dense_mat U j c) (smul a (dense_mat U i c)) else dense_mat U r c)).
  - lia.
  - split; [exact HU|]. intros r c Hr Hc. destruct (Z.leb_spec i c), (Z.ltb_spec c i); try lia; now rewrite ?andb_false_r, ?andb_true_r.
  - intros k V Hk (HV & EV). rewrite (is_dense_get _ _ V i k HV) by lia. cbn [bind].
    destruct (is_dense_mod n n V j k (fun u => ssub u (smul a (dense_mat V i k))) HV) as (E & -> & HE & EE); [lia|lia|].
    split; [exact HE|]. intros r c Hr Hc. rewrite EE by lia. rewrite !EV by lia.
    destruct (Z.eqb_spec r j) as [->|]; cbn [andb].
    + destruct (Z.eqb_spec c k) as [->|].
      * destruct (Z.leb_spec i k); [|lia]. destruct (Z.ltb_spec k (k + 1)); [|lia]. destruct (Z.ltb_spec k k); [lia|]. cbn [andb].
        destruct (Z.eqb_spec j j); [|lia]. destruct (Z.eqb_spec i j); [lia|]. reflexivity.
      * destruct (Z.leb_spec i c), (Z.ltb_spec c k), (Z.ltb_spec c (k + 1)); cbn; try lia; reflexivity.
    + reflexivity.
  - intros V (HV & EV). split; [exact HV|]. intros r c Hr Hc. rewrite EV by lia.
    destruct (Z.ltb_spec c n); [|lia]. now rewrite andb_true_r.
Qed.

(** After steps 0..i-1: columns 0..i-1 of L and rows 0..i-1 of U are final, the rest of U is what is
    left of A. *)
Definition lu_facts (A : mat S) (i : Z) (L U : dense S) : Prop :=
  sq L /\ sq U /\
  (forall r c, 0 <= r < n -> 0 <= c < n -> dense_mat L r c = if r =? c then (if c <? i then s1 else s0) else if (r <? c) || (i <=? c) then s0 else dense_mat L r c) /\
  (forall r c, 0 <= r < n -> 0 <= c < i -> c < r -> dense_mat U r c = s0) /\
  (forall r c, 0 <= r < n -> 0 <= c < n ->
     A r c = sadd (sum_range 0 i (fun k => smul (dense_mat L r k) (dense_mat U k c))) (if r <? i then s0 else dense_mat U r c)).

Definition lu_step (i : Z) (LU : dense S * dense S) : res (dense S * dense S) :=
  '(L, U) <- for_ (i + 1) n LU (fun j LU =>
      let '(L, U) := LU in
      uji <- d_get U j i ;; uii <- d_get U i i ;;
      let a_ji := sdiv uji uii in
      U <- for_ i n U (fun k U => uik <- d_get U i k ;; d_mod U j k (fun u => ssub u (smul a_ji uik))) ;;
      L <- d_set L j i a_ji ;;
      Ok (L, U)) ;;
  L <- d_set L i i s1 ;;
  Ok (L, U).

(** What one step does to the two matrices, whatever the pivot is. *)
Lemma lu_step_exact i L U : 0 <= i < n -> sq L -> sq U ->
  returns (lu_step i (L, U)) (fun LU => sq (fst LU) /\ sq (snd LU) /\
    (forall r c, 0 <= r < n -> 0 <= c < n -> dense_mat (fst LU) r c =
       if c =? i then (if r =? i then s1 else if i <? r then sdiv (dense_mat U r i) (dense_mat U i i) else dense_mat L r c) else dense_mat L r c) /\
    (forall r c, 0 <= r < n -> 0 <= c < n -> dense_mat (snd LU) r c =
       if (i <? r) && (i <=? c) then ssub (dense_mat U r c) (smul (sdiv (dense_mat U r i) (dense_mat U i i)) (dense_mat U i c)) else dense_mat U r c)).
Proof.
  intros Hi HL HU. unfold lu_step. apply returns_bind.
  apply (returns_for (fun j LU => sq (fst LU) /\ sq (snd LU) /\
    (forall r c, 0 <= r < n -> 0 <= c < n -> dense_mat (fst LU) r c =
       if (c =? i) && (i <? r) && (r <? j) then sdiv (dense_mat U r i) (dense_mat U i i) else dense_mat L r c) /\
    (forall r c, 0 <= r < n -> 0 <= c < n -> dense_mat (snd LU) r c =
       if (i <? r) && (i <=? c) && (r <? j) then ssub (dense_mat U r c) (smul (sdiv (dense_mat U r i) (dense_mat U i i)) (dense_mat U i c)) else dense_mat U r c))).
  - lia.
  - split; [exact HL|]. split; [exact HU|]. split; intros r c Hr Hc; cbn [fst snd].
    + destruct (Z.eqb_spec c i), (Z.ltb_spec i r), (Z.ltb_spec r (i + 1)); cbn; try lia; reflexivity.
    + destruct (Z.leb_spec i c), (Z.ltb_spec i r), (Z.ltb_spec r (i + 1)); cbn; try lia; reflexivity.
  - intros j (M & V) Hj (HM & HV & EM & EV). cbn [fst snd] in *.
    rewrite (is_dense_get _ _ V j i HV), (is_dense_get _ _ V i i HV) by lia. cbn [bind].
    rewrite !EV by lia. destruct (Z.ltb_spec i i); [lia|]. destruct (Z.ltb_spec j j); [lia|]. rewrite !andb_false_r. cbn [andb].
    apply returns_bind. eapply returns_weaken; [apply (eliminate_row V i j _ HV); lia|]. cbv beta. intros W (HW & EW).
    destruct (is_dense_set n n M j i (sdiv (dense_mat U j i) (dense_mat U i i)) HM) as (N & -> & HN & EN); [lia|lia|].
    cbn [bind]. split; [exact HN|]. split; [exact HW|]. split; intros r c Hr Hc; cbn [fst snd].
    + rewrite EN by lia. rewrite EM by lia.
      destruct (Z.eqb_spec r j) as [->|]; cbn [andb].
      * destruct (Z.eqb_spec c i) as [->|]; cbn [andb]; [|reflexivity].
        destruct (Z.ltb_spec i j), (Z.ltb_spec j (j + 1)); cbn; try lia; reflexivity.
      * destruct (Z.eqb_spec c i) as [->|]; cbn [andb]; [|reflexivity].
        destruct (Z.ltb_spec i r), (Z.ltb_spec r j), (Z.ltb_spec r (j + 1)); cbn; try lia; reflexivity.
    + rewrite EW by lia. rewrite !EV by lia. destruct (Z.ltb_spec i i); [lia|]. cbn [andb].
      destruct (Z.eqb_spec r j) as [->|]; cbn [andb].
      * destruct (Z.ltb_spec i j); [|lia]. destruct (Z.ltb_spec j j); [lia|]. destruct (Z.ltb_spec j (j + 1)); [|lia]. rewrite ?andb_false_r, ?andb_true_r. cbn [andb].
        destruct (Z.leb_spec i c); reflexivity.
      * destruct (Z.leb_spec i c), (Z.ltb_spec i r), (Z.ltb_spec r j), (Z.ltb_spec r (j + 1)); cbn; try lia; reflexivity.
  - intros (M & V) (HM & HV & EM & EV). cbn [fst snd] in *.
    destruct (is_dense_set n n M i i s1 HM) as (N & -> & HN & EN); [lia|lia|]. cbn [bind].
    split; [exact HN|]. split; [exact HV|]. split; intros r c Hr Hc; cbn [fst snd].
    + rewrite EN by lia. rewrite EM by lia. destruct (Z.eqb_spec c i) as [->|]; cbn [andb]; [|now rewrite andb_false_r].
      rewrite andb_true_r. destruct (Z.eqb_spec r i); [reflexivity|]. destruct (Z.ltb_spec r n); [|lia]. rewrite andb_true_r. reflexivity.
    + rewrite EV by lia. destruct (Z.ltb_spec r n); [|lia]. rewrite andb_true_r. reflexivity.
Qed.

Lemma lu_decomp_steps (A : dense S) : d_rows A = n -> lu_decomp A = (L <- d_zeros n n ;; for_ 0 n (L, A) lu_step).
Proof. intros H. unfold lu_decomp. rewrite H. reflexivity. Qed.

Lemma lu_step_facts A i L U : 0 <= i < n -> lu_facts A i L U -> (i < n - 1 -> dense_mat U i i <> s0) ->
  returns (lu_step i (L, U)) (fun LU => lu_facts A (i + 1) (fst LU) (snd LU) /\
    (forall r c, 0 <= r <= i -> 0 <= c < n -> dense_mat (snd LU) r c = dense_mat U r c) /\
    (forall r c, 0 <= r < n -> 0 <= c < i -> dense_mat (fst LU) r c = dense_mat L r c)).
Proof.
  intros Hi (HL & HU & FL & FU & FA) Hp. eapply returns_weaken; [apply (lu_step_exact i L U Hi HL HU)|]. cbv beta.
  intros (M & V). cbn [fst snd]. intros (HM & HV & EM & EV).
  assert (EVr : forall r c, 0 <= r <= i -> 0 <= c < n -> dense_mat V r c = dense_mat U r c).
  { intros r c Hr Hc. rewrite EV by lia. destruct (Z.ltb_spec i r); [lia|]. reflexivity. }
  assert (EMc : forall r c, 0 <= r < n -> 0 <= c < i -> dense_mat M r c = dense_mat L r c).
  { intros r c Hr Hc. rewrite EM by lia. destruct (Z.eqb_spec c i); [lia|]. reflexivity. }
  split; [|split; assumption].
  split; [exact HM|]. split; [exact HV|]. split; [|split].
  - intros r c Hr Hc. rewrite EM by lia. destruct (Z.eqb_spec c i) as [->|N].
    + destruct (Z.eqb_spec r i) as [->|N]; [destruct (Z.ltb_spec i (i + 1)); [reflexivity|lia]|].
      destruct (Z.ltb_spec i r), (Z.ltb_spec r i), (Z.leb_spec (i + 1) i); cbn; try lia; [reflexivity|].
      rewrite FL by lia. destruct (Z.eqb_spec r i); [lia|]. destruct (Z.ltb_spec r i); [|lia]. reflexivity.
    + rewrite FL by lia. destruct (Z.eqb_spec r c) as [->|].
      * destruct (Z.ltb_spec c i), (Z.ltb_spec c (i + 1)); try lia; reflexivity.
      * destruct (Z.ltb_spec r c), (Z.leb_spec i c), (Z.leb_spec (i + 1) c); cbn; try lia; reflexivity.
  - intros r c Hr Hc Hcr. rewrite EV by lia. destruct (Z.ltb_spec i r) as [Lr|Lr]; cbn [andb].
    + destruct (Z.leb_spec i c) as [Lc|Lc].
      * replace c with i by lia. rewrite div_mul by (apply Hp; lia). ring.
      * apply FU; lia.
    + apply FU; lia.
  - intros r c Hr Hc. rewrite (sum_range_last R) by lia.
    rewrite (sum_range_ext 0 i _ (fun k => smul (dense_mat L r k) (dense_mat U k c))).
    2:{ intros k Hk. rewrite EMc by lia. rewrite EVr by lia. reflexivity. }
    rewrite (FA r c Hr Hc). rewrite (EVr i c) by lia. rewrite (EM r i) by lia. rewrite Z.eqb_refl.
    destruct (Z.ltb_spec r (i + 1)) as [Lr|Lr].
    + destruct (Z.eqb_spec r i) as [->|].
      * destruct (Z.ltb_spec i i); [lia|]. ring.
      * destruct (Z.ltb_spec r i); [|lia]. destruct (Z.ltb_spec i r); [lia|].
        rewrite FL by lia. destruct (Z.eqb_spec r i); [lia|]. destruct (Z.ltb_spec r i); [|lia]. cbn. ring.
    + destruct (Z.eqb_spec r i); [lia|]. destruct (Z.ltb_spec i r); [|lia]. destruct (Z.ltb_spec r i); [lia|].
      rewrite EV by lia. destruct (Z.ltb_spec i r); [|lia]. cbn [andb]. destruct (Z.leb_spec i c) as [Lc|Lc]; [ring|].
      rewrite (FU i c) by lia. ring.
Qed.

Lemma lu_facts_start (A : dense S) L : sq A -> sq L -> (forall i j, 0 <= i < n -> 0 <= j < n -> dense_mat L i j = s0) ->
  lu_facts (dense_mat A) 0 L A.
Proof.
  intros HA HL HL0. split; [exact HL|]. split; [exact HA|]. split; [|split].
  - intros r c Hr Hc. rewrite HL0 by lia. destruct (r =? c); [destruct (Z.ltb_spec c 0); [lia|reflexivity]|].
    destruct (Z.leb_spec 0 c); [|lia]. rewrite orb_true_r. reflexivity.
  - intros r c Hr Hc. lia.
  - intros r c Hr Hc. rewrite sum_range_empty by lia. destruct (Z.ltb_spec r 0); [lia|]. ring.
Qed.

Lemma lu_facts_end A L U : lu_facts A n L U ->
  lower n (dense_mat L) /\ unit_diag n (dense_mat L) /\ upper n (dense_mat U) /\ same_mat n n (mat_mul (dense_mat L) (dense_mat U) n) A.
Proof.
  intros (HL & HU & FL & FU & FA). split; [|split; [|split]].
  - intros i j Hi Hj Hlt. rewrite FL by lia. destruct (Z.eqb_spec i j); [lia|]. destruct (Z.ltb_spec i j); [|lia]. reflexivity.
  - intros i Hi. rewrite FL by lia. rewrite Z.eqb_refl. destruct (Z.ltb_spec i n); [reflexivity|lia].
  - intros i j Hi Hj Hlt. apply FU; lia.
  - intros i j Hi Hj. rewrite FA by lia. destruct (Z.ltb_spec i n); [|lia]. unfold mat_mul. ring.
Qed.

(** The program always ends; if the pivots it found are not zero, the product is A. *)
Lemma lu_decomp_sound (A : dense S) : 0 <= n -> sq A ->
  exists L U, lu_decomp A = Ok (L, U) /\ sq L /\ sq U /\
    (nonzero_diag (n - 1) (dense_mat U) ->
     lower n (dense_mat L) /\ unit_diag n (dense_mat L) /\ upper n (dense_mat U) /\ same_mat n n (mat_mul (dense_mat L) (dense_mat U) n) (dense_mat A)).
Proof.
  intros Hn HA. rewrite lu_decomp_steps by apply HA. destruct (@d_zeros_ok S n n Hn Hn) as (L0 & -> & K0 & R0 & C0 & Z0). cbn [bind].
  cut (returns (for_ 0 n (L0, A) lu_step) (fun LU => sq (fst LU) /\ sq (snd LU) /\
    (nonzero_diag (n - 1) (dense_mat (snd LU)) -> lu_facts (dense_mat A) n (fst LU) (snd LU)))).
  { intros H. apply returns_exists in H. destruct H as ((L & U) & E & HL & HU & H). cbn [fst snd] in *.
    exists L, U. split; [exact E|]. split; [exact HL|]. split; [exact HU|]. intros Hd. apply lu_facts_end, H, Hd. }
  apply (returns_for (fun i LU => sq (fst LU) /\ sq (snd LU) /\
    ((forall k, 0 <= k < i -> k < n - 1 -> dense_mat (snd LU) k k <> s0) -> lu_facts (dense_mat A) i (fst LU) (snd LU)))).
  - exact Hn.
  - cbn [fst snd]. assert (HL0 : sq L0) by (split; [exact K0|split; assumption]). split; [exact HL0|]. split; [exact HA|]. intros _. now apply lu_facts_start.
  - intros i (L & U) Hi (HL & HU & H). cbn [fst snd] in *.
    pose proof (lu_step_exact i L U Hi HL HU) as Hx. apply returns_exists in Hx. destruct Hx as ((M & V) & E & HM & HV & EM & EV). cbn [fst snd] in *.
    rewrite E. cbn [returns fst snd]. split; [exact HM|]. split; [exact HV|]. intros Hd.
    assert (Hr : forall k, 0 <= k <= i -> dense_mat V k k = dense_mat U k k).
    { intros k Hk. rewrite EV by lia. destruct (Z.ltb_spec i k); [lia|]. reflexivity. }
    pose proof (lu_step_facts (dense_mat A) i L U Hi) as Hs. rewrite E in Hs. cbn [returns fst snd] in Hs. apply Hs.
    + apply H. intros k Hk Hk1. rewrite <- Hr by lia. apply Hd; lia.
    + intros Hk1. rewrite <- Hr by lia. apply Hd; lia.
  - intros (L & U) (HL & HU & H). cbn [fst snd] in *. split; [exact HL|]. split; [exact HU|]. intros Hd. apply H. intros k Hk Hk1. apply Hd. lia.
Qed.

(** The factors are unique, and the program finds them. *)
Lemma lu_decomp_unique (A : dense S) (L0 U0 : mat S) : 0 <= n -> sq A ->
  lower n L0 -> unit_diag n L0 -> upper n U0 -> nonzero_diag (n - 1) U0 -> same_mat n n (mat_mul L0 U0 n) (dense_mat A) ->
  exists L U, lu_decomp A = Ok (L, U) /\ sq L /\ sq U /\ same_mat n n (dense_mat L) L0 /\ same_mat n n (dense_mat U) U0.
Proof.
  intros Hn HA HL0 HL1 HU0 HU1 HM. rewrite lu_decomp_steps by apply HA. destruct (@d_zeros_ok S n n Hn Hn) as (Lz & -> & K0 & R0 & C0 & Z0). cbn [bind].
  cut (returns (for_ 0 n (Lz, A) lu_step) (fun LU => lu_facts (dense_mat A) n (fst LU) (snd LU) /\
    same_mat n n (dense_mat (fst LU)) L0 /\ same_mat n n (dense_mat (snd LU)) U0)).
  { intros H. apply returns_exists in H. destruct H as ((L & U) & E & HF & H1 & H2). cbn [fst snd] in *. exists L, U. split; [exact E|].
    split; [apply HF|]. split; [apply HF|]. split; assumption. }
  apply (returns_for (fun i LU => lu_facts (dense_mat A) i (fst LU) (snd LU) /\
    same_mat n i (dense_mat (fst LU)) L0 /\ same_mat i n (dense_mat (snd LU)) U0)).
  - exact Hn.
  - cbn [fst snd]. split; [apply lu_facts_start; [exact HA|split; [exact K0|split; assumption]|exact Z0]|]. split; intros i j; lia.
  - intros i (L & U) Hi (HF & HL & HU). cbn [fst snd] in *.
    assert (Hrow : forall c, 0 <= c < n -> dense_mat U i c = U0 i c).
    { intros c Hc. destruct HF as (_ & _ & _ & _ & FA). specialize (FA i c Hi Hc). rewrite <- HM in FA by lia. destruct (Z.ltb_spec i i); [lia|].
      unfold mat_mul in FA. rewrite (sum_range_split R 0 i n) in FA by lia. rewrite (sum_range_first i n) in FA by lia.
      rewrite (sum_range_ext 0 i (fun k => smul (dense_mat L i k) (dense_mat U k c)) (fun k => smul (L0 i k) (U0 k c))) in FA.
      2:{ intros k Hk. rewrite HL, HU by lia. reflexivity. }
      rewrite (sum_range_0 R (i + 1) n) in FA. 2:{ intros k Hk. rewrite HL0 by lia. ring. }
      rewrite HL1 in FA by lia. set (s := sum_range 0 i _) in FA.
      transitivity (ssub (sadd s (dense_mat U i c)) s); [ring|]. rewrite <- FA. ring. }
    eapply returns_weaken; [apply (lu_step_facts _ i L U Hi HF)|].
    + intros Hi1. rewrite Hrow by lia. apply HU1. lia.
    + cbv beta. intros (M & V). cbn [fst snd]. intros (HF' & EV & EM). split; [exact HF'|].
      assert (HVU : same_mat (i + 1) n (dense_mat V) U0).
      { intros r c Hr Hc. rewrite EV by lia. destruct (Z.eq_dec r i) as [->|]; [now apply Hrow|]. apply HU; lia. }
      split; [|exact HVU].
      intros r c Hr Hc. destruct (Z.eq_dec c i) as [->|]; [|rewrite EM by lia; apply HL; lia].
      destruct HF' as (_ & _ & FL & FU & FA). destruct (Z.lt_trichotomy r i) as [Hlt|[->|Hgt]].
      * rewrite FL by lia. destruct (Z.eqb_spec r i); [lia|]. destruct (Z.ltb_spec r i); [|lia]. cbn. now rewrite HL0 by lia.
      * rewrite FL by lia. rewrite Z.eqb_refl. destruct (Z.ltb_spec i (i + 1)); [|lia]. now rewrite HL1 by lia.
      * specialize (FA r i Hr Hi). rewrite <- HM in FA by lia. destruct (Z.ltb_spec r (i + 1)); [lia|]. rewrite (FU r i) in FA by lia.
        rewrite (sum_range_last R) in FA by lia. unfold mat_mul in FA. rewrite (sum_range_split R 0 (i + 1) n) in FA by lia. rewrite (sum_range_last R) in FA by lia.
        rewrite (sum_range_0 R (i + 1) n) in FA. 2:{ intros k Hk. rewrite (HU0 k i) by lia. ring. }
        rewrite (sum_range_ext 0 i (fun k => smul (dense_mat M r k) (dense_mat V k i)) (fun k => smul (L0 r k) (U0 k i))) in FA.
        2:{ intros k Hk. rewrite EM, HVU by lia. rewrite HL by lia. reflexivity. }
        rewrite (HVU i i) in FA by lia. set (s := sum_range 0 i _) in FA.
        apply (mul_eq _ _ (U0 i i)); [|apply HU1; lia].
        transitivity (ssub (sadd (sadd s (smul (dense_mat M r i) (U0 i i))) s0) s); [ring|]. rewrite <- FA. ring.
  - intros (L & U) H. exact H.
Qed.

(* ---------------------------------------------------------------- triangular systems *)

Lemma minus_sum (f : Z -> T) lo m (b : T) : lo <= m -> ssub (ssub b (sum_range lo m f)) (f m) = ssub b (sum_range lo (m + 1) f).
Proof. intros H. rewrite (sum_range_last R) by lia. ring. Qed.

Lemma forward_ok (L : dense S) (b : list T) : 0 <= n -> sq L -> zlen b = n -> nonzero_diag n (dense_mat L) ->
  exists x, forward_elim L b = Ok x /\ zlen x = n /\
    forall i, 0 <= i < n -> sum_range 0 (i + 1) (fun j => smul (dense_mat L i j) (vec_of x j)) = vec_of b i.
Proof.
  intros Hn HL Hb Hd. unfold forward_elim. destruct HL as (K & HR & HC). rewrite HR. rewrite vec_ok by lia. cbn [bind]. apply returns_exists.
  assert (HL : sq L) by (split; [exact K|split; assumption]).
  apply (returns_for (fun i x => zlen x = n /\ forall r, 0 <= r < i -> sum_range 0 (r + 1) (fun j => smul (dense_mat L r j) (vec_of x j)) = vec_of b r)).
  - exact Hn.
  - split; [rewrite zlen_repeat; lia|]. intros r Hr. lia.
  - intros i x Hi (Hx & Hs). rewrite x_get_ok by lia. cbn [bind]. apply returns_bind.
    apply (returns_for_down (fun j sum => sum = ssub (vec_of b i) (sum_range (j + 1) i (fun j => smul (dense_mat L i j) (vec_of x j))))).
    + lia.
    + rewrite sum_range_empty by lia. ring.
    + intros j sum Hj ->. rewrite (is_dense_get _ _ L i j HL) by lia. cbn [bind]. rewrite x_get_ok by lia. cbn [bind returns].
      replace (j - 1 + 1) with j by lia. rewrite (sum_range_first j i) by lia. ring.
    + intros sum ->. rewrite (is_dense_get _ _ L i i HL) by lia. cbn [bind]. rewrite x_set_ok by lia. cbn [returns].
      split; [rewrite zlen_upd; exact Hx|]. replace (-1 + 1) with 0 by lia. intros r Hr.
      destruct (Z.eq_dec r i) as [->|].
      * rewrite (sum_range_last R) by lia. rewrite vec_upd by lia. rewrite Z.eqb_refl.
        rewrite (sum_range_ext 0 i _ (fun j => smul (dense_mat L i j) (vec_of x j))).
        2:{ intros k Hk. f_equal. rewrite vec_upd by lia. destruct (Z.eqb_spec k i); [lia|reflexivity]. }
        set (s := sum_range 0 i _). transitivity (sadd s (smul (sdiv (ssub (vec_of b i) s) (dense_mat L i i)) (dense_mat L i i))); [ring|].
        rewrite div_mul by (apply Hd; lia). ring.
      * rewrite <- (Hs r) by lia. apply sum_range_ext. intros k Hk. f_equal. rewrite vec_upd by lia. destruct (Z.eqb_spec k i); [lia|reflexivity].
  - intros x H. exact H.
Qed.

Lemma back_ok (U : dense S) (b : list T) : 0 <= n -> sq U -> zlen b = n -> nonzero_diag n (dense_mat U) ->
  exists x, back_solve U b = Ok x /\ zlen x = n /\
    forall i, 0 <= i < n -> sum_range i n (fun j => smul (dense_mat U i j) (vec_of x j)) = vec_of b i.
Proof.
  intros Hn HU Hb Hd. unfold back_solve. destruct HU as (K & HR & HC). rewrite HR. rewrite vec_ok by lia. cbn [bind]. apply returns_exists.
  assert (HU : sq U) by (split; [exact K|split; assumption]).
  apply (returns_for_down (fun i x => zlen x = n /\ forall r, i < r < n -> sum_range r n (fun j => smul (dense_mat U r j) (vec_of x j)) = vec_of b r)).
  - lia.
  - split; [rewrite zlen_repeat; lia|]. intros r Hr. lia.
  - intros i x Hi (Hx & Hs). rewrite x_get_ok by lia. cbn [bind]. apply returns_bind.
    apply (returns_for (fun j sum => sum = ssub (vec_of b i) (sum_range (i + 1) j (fun j => smul (dense_mat U i j) (vec_of x j))))).
    + lia.
    + rewrite sum_range_empty by lia. ring.
    + intros j sum Hj ->. rewrite (is_dense_get _ _ U i j HU) by lia. cbn [bind]. rewrite x_get_ok by lia. cbn [bind returns].
      rewrite (sum_range_last R) by lia. ring.
    + intros sum ->. rewrite (is_dense_get _ _ U i i HU) by lia. cbn [bind]. rewrite x_set_ok by lia. cbn [returns].
      split; [rewrite zlen_upd; exact Hx|]. intros r Hr.
      destruct (Z.eq_dec r i) as [->|].
      * rewrite (sum_range_first i n) by lia. rewrite vec_upd by lia. rewrite Z.eqb_refl.
        set (s := sum_range (i + 1) n (fun j => smul (dense_mat U i j) (vec_of x j))).
        replace (sum_range (i + 1) n _) with s.
        2:{ apply sum_range_ext. intros k Hk. f_equal. rewrite vec_upd by lia. destruct (Z.eqb_spec k i); [lia|reflexivity]. }
        transitivity (sadd (smul (sdiv (ssub (vec_of b i) s) (dense_mat U i i)) (dense_mat U i i)) s); [ring|].
        rewrite div_mul by (apply Hd; lia). ring.
      * rewrite <- (Hs r) by lia. apply sum_range_ext. intros k Hk. f_equal. rewrite vec_upd by lia. destruct (Z.eqb_spec k i); [lia|reflexivity].
  - intros x (Hx & H). split; [exact Hx|]. intros i Hi. apply H. lia.
Qed.

Lemma lower_sum (L : mat S) (x : vect S) i : lower n L -> 0 <= i < n -> mat_vec L n x i = sum_range 0 (i + 1) (fun j => smul (L i j) (x j)).
Proof.
  intros HL Hi. unfold mat_vec. rewrite (sum_range_split R 0 (i + 1) n) by lia. rewrite (sum_range_0 R (i + 1) n); [ring|].
  intros k Hk. rewrite HL by lia. ring.
Qed.
Lemma upper_sum (U : mat S) (x : vect S) i : upper n U -> 0 <= i < n -> mat_vec U n x i = sum_range i n (fun j => smul (U i j) (x j)).
Proof.
  intros HU Hi. unfold mat_vec. rewrite (sum_range_split R 0 i n) by lia. rewrite (sum_range_0 R 0 i); [ring|].
  intros k Hk. rewrite HU by lia. ring.
Qed.

Lemma forward_solves (L : dense S) (b : list T) : 0 <= n -> sq L -> zlen b = n -> lower n (dense_mat L) -> nonzero_diag n (dense_mat L) ->
  exists x, forward_elim L b = Ok x /\ solves n (dense_mat L) b x.
Proof.
  intros Hn HL Hb HT Hd. destruct (forward_ok L b Hn HL Hb Hd) as (x & E & Hx & H). exists x. split; [exact E|]. split; [exact Hx|].
  intros i Hi. rewrite (lower_sum _ _ _ HT Hi). now apply H.
Qed.
Lemma back_solves (U : dense S) (b : list T) : 0 <= n -> sq U -> zlen b = n -> upper n (dense_mat U) -> nonzero_diag n (dense_mat U) ->
  exists x, back_solve U b = Ok x /\ solves n (dense_mat U) b x.
Proof.
  intros Hn HL Hb HT Hd. destruct (back_ok U b Hn HL Hb Hd) as (x & E & Hx & H). exists x. split; [exact E|]. split; [exact Hx|].
  intros i Hi. rewrite (upper_sum _ _ _ HT Hi). now apply H.
Qed.

Lemma solve_lu_ok (L U : dense S) (b : list T) : 0 <= n -> sq L -> sq U -> zlen b = n ->
  lower n (dense_mat L) -> nonzero_diag n (dense_mat L) -> upper n (dense_mat U) -> nonzero_diag n (dense_mat U) ->
  exists x, solve_lu L U b = Ok x /\ solves n (mat_mul (dense_mat L) (dense_mat U) n) b x.
Proof.
  intros Hn HL HU Hb TL DL TU DU. unfold solve_lu.
  destruct (forward_solves L b Hn HL Hb TL DL) as (y & -> & Hy & Ey). cbn [bind].
  destruct (back_solves U y Hn HU Hy TU DU) as (x & -> & Hx & Ex). exists x. split; [reflexivity|]. split; [exact Hx|].
  intros i Hi. rewrite (mat_vec_mul R). rewrite <- Ey by lia. apply sum_range_ext. intros k Hk. now rewrite Ex by lia.
Qed.

End Lu.
