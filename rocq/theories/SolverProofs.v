(** Exact results of the solver loops. *)

From Coq Require Import ZArith List Bool Lia Ring.
From Verif Require Import Base Scalar Spec Vec SumFacts LoopFacts Block BlockSpec BlockOp Solver SolverSpec.
Import ListNotations.
Open Scope Z_scope.

Section SolverProofs.
Context {S : scalar}.
Notation T := (car S).

(* ---------------------------------------------------------------- vector arithmetic *)

Definition zipw (f : T -> T -> T) (x y : list T) : list T :=
  map (fun i => f (vec_of x i) (vec_of y i)) (zrange 0 (zlen x)).

Lemma zlen_zipw f x y : zlen (zipw f x y) = zlen x.
Proof. unfold zipw. rewrite zlen_map_zrange; unfold zlen; lia. Qed.

Lemma zipw_at f x y i : 0 <= i < zlen x -> vec_of (zipw f x y) i = f (vec_of x i) (vec_of y i).
Proof. intros Hi. unfold zipw. unfold vec_of at 1. rewrite zn_map_zrange by lia. reflexivity. Qed.

Lemma l_pointwise (g : Z -> T -> T) (x : list T) n : zlen x = n ->
  forall body, (forall i l, 0 <= i < n -> zlen l = n -> body i l = set l i (g i (zn s0 l i))) ->
  for_ 0 n x body = Ok (map (fun i => g i (vec_of x i)) (zrange 0 n)).
Proof.
  intros Hx body Hb.
  assert (Hn : 0 <= n) by (subst; unfold zlen; lia).
  assert (H : returns (for_ 0 n x body) (fun l => zlen l = n /\ forall i, 0 <= i < n -> zn s0 l i = g i (zn s0 x i))).
  { apply (returns_for (fun k l => zlen l = n /\ forall i, 0 <= i < n ->
        zn s0 l i = if i <? k then g i (zn s0 x i) else zn s0 x i)); [lia| | |].
    - split; [exact Hx|]. intros i Hi. replace (i <? 0) with false by lia. reflexivity.
    - intros k l Hk (Hl & Hv). rewrite Hb by lia. rewrite set_ok by lia.
      cbn [returns]. split; [rewrite zlen_upd; exact Hl|]. intros i Hi.
      rewrite zn_upd by lia. destruct (Z.eqb_spec i k) as [->|Hne].
      + replace (k <? k + 1) with true by lia. rewrite Hv by lia. replace (k <? k) with false by lia. reflexivity.
      + rewrite Hv by lia. destruct (Z.ltb_spec i k); destruct (Z.ltb_spec i (k + 1)); try lia; reflexivity.
    - intros l (Hl & Hv). split; [exact Hl|]. intros i Hi. rewrite Hv by lia. replace (i <? n) with true by lia. reflexivity. }
  apply returns_exists in H. destruct H as (l & E & Hl & Hv). rewrite E. f_equal.
  apply (list_ext s0).
  - rewrite zlen_map_zrange by lia. lia.
  - intros i Hi. rewrite Hv by lia. rewrite zn_map_zrange by lia. reflexivity.
Qed.

Lemma l_zip_ok f (x y : list T) : zlen y = zlen x -> l_zip f x y = Ok (zipw f x y).
Proof.
  intros H. unfold l_zip. rewrite (proj2 (Z.eqb_eq _ _) H). cbn [assert_ bind].
  rewrite (l_pointwise (fun i a => f a (vec_of y i)) x (zlen x) eq_refl); [reflexivity|].
  intros i l Hi Hl. rewrite (get_ok s0) by lia. cbn [bind]. rewrite (get_ok s0) by lia. reflexivity.
Qed.

Lemma l_map_ok f (x : list T) : l_map f x = Ok (map f x).
Proof.
  unfold l_map. rewrite (l_pointwise (fun _ a => f a) x (zlen x) eq_refl).
  - f_equal. apply (list_ext (f s0)).
    + rewrite zlen_map_zrange by (unfold zlen; lia). unfold zlen. rewrite map_length. lia.
    + intros i Hi. rewrite zlen_map_zrange in Hi by (unfold zlen; lia).
      rewrite (zn_map_zrange) by lia. rewrite (zn_map s0 (f s0)) by lia. reflexivity.
  - intros i l Hi Hl. rewrite (get_ok s0) by lia. reflexivity.
Qed.

(* ---------------------------------------------------------------- PCG *)

Section Pcg.
Context {W : Type} (I : W -> Prop) (A : op S W) (M : option (op S W)) (dot : dotp S) (n : Z).
Context (fA fM : list T -> list T) (d : list T -> list T -> T).
Context (HrA : o_rows A = n) (HcA : o_cols A = n) (HA : op_applies I A fA).
Context (HM : prec_applies I M n fM) (Hd : dot_gives dot n d).

Lemma applies_vec (o : op S W) f w x out : op_applies I o f -> I w -> zlen x = o_cols o ->
  zlen (f x) = o_rows o /\ exists w', op_mult_vec o w x out = Ok (w', f x) /\ I w'.
Proof.
  intros (Hr & Hm) HI Hx. destruct (l_set_size_ok out (o_rows o) Hr) as (out' & E & Hl).
  unfold op_mult_vec. rewrite E. cbn [bind]. apply Hm; auto.
Qed.

Lemma A_vec w x out : I w -> zlen x = n ->
  zlen (fA x) = n /\ exists w', op_mult_vec A w x out = Ok (w', fA x) /\ I w'.
Proof. intros Hw Hx. rewrite <- HrA at 1. apply applies_vec; auto. lia. Qed.

Lemma prec_vec w r z : I w -> zlen r = n ->
  zlen (fM r) = n /\ exists w', pcg_prec M w r z = Ok (w', fM r) /\ I w'.
Proof.
  intros Hw Hr. unfold pcg_prec. unfold prec_applies in HM. destruct M as [m|].
  - destruct HM as (E1 & E2 & H). rewrite <- E1 at 1. apply applies_vec; auto. lia.
  - rewrite (HM r Hr). eauto.
Qed.

Definition p_alpha (u : pbuf S) : T := (d (pb_r u) (pb_z u) / d (pb_p u) (fA (pb_p u)))%S.
Definition p_x (u : pbuf S) (x : list T) : list T := zipw (fun a b => (a + p_alpha u * b)%S) x (pb_p u).
Definition p_r (u : pbuf S) : list T := zipw (fun a b => (a - p_alpha u * b)%S) (pb_r u) (fA (pb_p u)).
Definition p_z (u : pbuf S) : list T := fM (p_r u).
Definition p_beta (u : pbuf S) : T := (d (p_z u) (p_r u) / d (pb_z u) (pb_r u))%S.
Definition p_p (u : pbuf S) : list T := zipw sadd (map (fun a => (a * p_beta u)%S) (pb_p u)) (p_z u).
Definition p_stop (tol : T) (u : pbuf S) : bool := slt (d (p_z u) (p_r u)) tol.
Definition p_next (tol : T) (u : pbuf S) : pbuf S :=
  PBuf (fA (pb_p u)) (p_r u) (if p_stop tol u then pb_p u else p_p u) (p_z u).

Record plens (u : pbuf S) (x : list T) : Prop := {
  pl_r : zlen (pb_r u) = n; pl_p : zlen (pb_p u) = n; pl_z : zlen (pb_z u) = n; pl_x : zlen x = n
}.

Lemma p_step_case par tol w u x : I w -> plens u x ->
  plens (p_next tol u) (p_x u x) /\
  ((slt (sp_floor par) (d (pb_p u) (fA (pb_p u))) = true /\
    exists w', pcg_step A M dot par tol w u x = Ok (p_stop tol u, w', p_next tol u, p_x u x) /\ I w') \/
   (slt (sp_floor par) (d (pb_p u) (fA (pb_p u))) = false /\ pcg_step A M dot par tol w u x = Fail FThrow)).
Proof.
  intros Hw [Hr Hp Hz Hx].
  destruct (A_vec w (pb_p u) (pb_Ap u) Hw Hp) as (HlA & w1 & E1 & Hw1).
  assert (Hr' : zlen (p_r u) = n) by (unfold p_r; rewrite zlen_zipw; exact Hr).
  destruct (prec_vec w1 (p_r u) (pb_z u) Hw1 Hr') as (Hlz & w2 & E2 & Hw2). fold (p_z u) in Hlz, E2.
  split.
  - constructor; cbn [p_next pb_r pb_p pb_z]; auto.
    + destruct (p_stop tol u); [exact Hp|]. unfold p_p. rewrite zlen_zipw, zlen_map. exact Hp.
    + unfold p_x. rewrite zlen_zipw. exact Hx.
  - destruct (slt (sp_floor par) (d (pb_p u) (fA (pb_p u)))) eqn:Ef; [left|right]; (split; [reflexivity|]).
    + exists w2. split; [|exact Hw2]. unfold pcg_step. rewrite E1. cbn [bind].
      rewrite !Hd by assumption. cbn [bind]. rewrite Ef. cbn [bind].
      fold (p_alpha u). unfold l_axpy. rewrite l_zip_ok by lia. cbn [bind].
      unfold l_axmy. rewrite l_zip_ok by lia. cbn [bind]. fold (p_r u). rewrite E2. cbn [bind].
      rewrite Hd by assumption. cbn [bind]. fold (p_stop tol u). unfold p_next.
      destruct (p_stop tol u); [reflexivity|]. fold (p_beta u).
      unfold l_mulc. rewrite l_map_ok. cbn [bind]. unfold l_plus. rewrite l_zip_ok by (rewrite zlen_map; lia).
      reflexivity.
    + unfold pcg_step. rewrite E1. cbn [bind].
      rewrite !Hd by assumption. cbn [bind]. rewrite Ef. reflexivity.
Qed.

(** [J] is kept by every pass that continues, [F] holds after every pass. *)
Lemma pcg_loop_inv (J F : pbuf S -> list T -> Prop) par tol :
  (forall u x, plens u x -> J u x -> slt (sp_floor par) (d (pb_p u) (fA (pb_p u))) = true ->
     (p_stop tol u = false -> J (p_next tol u) (p_x u x)) /\ F (p_next tol u) (p_x u x)) ->
  forall fuel num w u x, I w -> plens u x -> J u x ->
  sp_max par <= num + 1 + Z.of_nat fuel ->
  pcg_loop fuel A M dot par tol num w u x = Fail FThrow \/
  exists w' u' x' k, pcg_loop fuel A M dot par tol num w u x = Ok (w', u', x', k) /\ I w' /\ plens u' x' /\ F u' x' /\
    pb_z u' = fM (pb_r u') /\ num <= k <= Z.max (num + 1) (sp_max par) /\
    (k < Z.max (num + 1) (sp_max par) -> slt (d (pb_z u') (pb_r u')) tol = true).
Proof.
  intros HJ. induction fuel as [|fuel IH]; intros num w u x Hw Hl Hj Hf;
    (destruct (p_step_case par tol w u x Hw Hl) as (Hl' & [(Ef & w' & E & Hw')|(_ & E)]);
     [|left; cbn [pcg_loop]; rewrite E; reflexivity]);
    pose proof (HJ u x Hl Hj Ef) as (Hj' & Hf'); cbn [pcg_loop]; rewrite E; cbn [bind];
    destruct (p_stop tol u) eqn:Es.
  - right. exists w', (p_next tol u), (p_x u x), num. do 4 (split; [auto|]). split; [reflexivity|].
    split; [lia|]. intros _. exact Es.
  - replace (num + 1 <? sp_max par) with false by lia. right.
    exists w', (p_next tol u), (p_x u x), (num + 1). do 4 (split; [auto|]). split; [reflexivity|].
    split; [lia|]. lia.
  - right. exists w', (p_next tol u), (p_x u x), num. do 4 (split; [auto|]). split; [reflexivity|].
    split; [lia|]. intros _. exact Es.
  - destruct (Z.ltb_spec (num + 1) (sp_max par)) as [Hlt|Hge].
    + destruct (IH (num + 1) w' (p_next tol u) (p_x u x) Hw' Hl' (Hj' eq_refl) ltac:(lia)) as [Ht|Hok]; [left; exact Ht|right].
      destruct Hok as (w2 & u2 & x2 & k & Ek & Hw2 & Hl2 & Hj2 & Hz2 & Hk & Hs).
      exists w2, u2, x2, k. do 5 (split; [auto|]). split; [lia|]. intros Hlt2. apply Hs. lia.
    + right. exists w', (p_next tol u), (p_x u x), (num + 1). do 4 (split; [auto|]). split; [reflexivity|].
      split; [lia|]. lia.
Qed.

Definition p_start (b x : list T) : pbuf S :=
  let r := zipw ssub b (fA x) in PBuf (fA x) r (fM r) (fM r).
Definition p_tol (par : sparams S) (b x : list T) : T :=
  tolerance par (d (pb_z (p_start b x)) (pb_r (p_start b x))).

Lemma p_start_lens w b x : I w -> zlen b = n -> zlen x = n -> plens (p_start b x) x.
Proof.
  intros Hw Hb Hx. destruct (A_vec w x [] Hw Hx) as (HlA & w1 & _ & Hw1).
  assert (Hr : zlen (zipw ssub b (fA x)) = n) by (rewrite zlen_zipw; exact Hb).
  destruct (prec_vec w1 _ [] Hw1 Hr) as (Hlz & _). constructor; cbn [p_start pb_r pb_p pb_z]; auto.
Qed.

Lemma pcg_mult_case par w u b x : I w -> zlen b = n -> zlen x = n ->
  exists w', I w' /\ pcg_mult A M dot par w u b x =
    if slt (d (pb_z (p_start b x)) (pb_r (p_start b x))) (p_tol par b x)
    then Ok (w', p_start b x, x, 1)
    else pcg_loop (Z.to_nat (sp_max par)) A M dot par (p_tol par b x) 1 w' (p_start b x) x.
Proof.
  intros Hw Hb Hx. destruct (A_vec w x (pb_Ap u) Hw Hx) as (HlA & w1 & E1 & Hw1).
  set (r := zipw ssub b (fA x)).
  assert (Hr : zlen r = n) by (unfold r; rewrite zlen_zipw; exact Hb).
  destruct (prec_vec w1 r (pb_z u) Hw1 Hr) as (Hlz & w2 & E2 & Hw2).
  exists w2. split; [exact Hw2|]. unfold pcg_mult. rewrite HrA, Hb, Hx, Z.eqb_refl. cbn [assert_ bind].
  rewrite E1. cbn [bind]. unfold l_sub. rewrite l_zip_ok by lia. cbn [bind].
  change (zipw (fun a b0 : T => (a - b0)%S) b (fA x)) with r. rewrite E2. cbn [bind].
  rewrite Hd by assumption. cbn [bind]. rewrite Hd by assumption. reflexivity.
Qed.

Lemma pcg_mult_inv (J F : pbuf S -> list T -> Prop) par w u b x :
  let tol := p_tol par b x in
  I w -> zlen b = n -> zlen x = n ->
  J (p_start b x) x -> F (p_start b x) x ->
  (forall u x, plens u x -> J u x -> slt (sp_floor par) (d (pb_p u) (fA (pb_p u))) = true ->
     (p_stop tol u = false -> J (p_next tol u) (p_x u x)) /\ F (p_next tol u) (p_x u x)) ->
  pcg_mult A M dot par w u b x = Fail FThrow \/
  exists w' u' x' k, pcg_mult A M dot par w u b x = Ok (w', u', x', k) /\ I w' /\ plens u' x' /\ F u' x' /\
    pb_z u' = fM (pb_r u') /\ 1 <= k <= Z.max 2 (sp_max par) /\
    (k < Z.max 2 (sp_max par) -> slt (d (pb_z u') (pb_r u')) tol = true).
Proof.
  intros tol Hw Hb Hx H0 HF0 HJ. destruct (pcg_mult_case par w u b x Hw Hb Hx) as (w' & Hw' & E). rewrite E. clear E.
  fold tol. pose proof (p_start_lens w b x Hw Hb Hx) as Hl.
  destruct (slt (d (pb_z (p_start b x)) (pb_r (p_start b x))) tol) eqn:Es.
  - right. exists w', (p_start b x), x, 1. do 4 (split; [auto|]). split; [reflexivity|]. split; [lia|]. intros _. exact Es.
  - apply (pcg_loop_inv J F par tol HJ); auto. lia.
Qed.

End Pcg.

(* ---------------------------------------------------------------- exact arithmetic *)

Section Ring.
Context (R : ring_laws S).
Let Rth : ring_theory (@s0 S) s1 sadd smul ssub sopp (@eq (car S)) := R.
Add Ring SRing : Rth.
Local Open Scope S_scope.

Lemma mat_vec_axpy (A : mat S) n (x p : vect S) c i :
  mat_vec A n (fun j => x j + c * p j) i = mat_vec A n x i + c * mat_vec A n p i.
Proof.
  unfold mat_vec. rewrite <- (sum_range_scale R), <- (sum_range_add R).
  apply sum_range_ext. intros j _. ring.
Qed.

Lemma zlen_mat_list (A : mat S) n x : (0 <= n)%Z -> zlen (mat_list A n x) = n.
Proof. intros Hn. unfold mat_list. apply zlen_map_zrange. exact Hn. Qed.
Lemma mat_list_at (A : mat S) n x i : (0 <= i < n)%Z -> vec_of (mat_list A n x) i = mat_vec A n (vec_of x) i.
Proof. intros Hi. unfold mat_list. unfold vec_of at 1. now rewrite zn_map_zrange by lia. Qed.
Lemma zlen_residual (A : mat S) n b x : (0 <= n)%Z -> zlen (residual A n b x) = n.
Proof. intros Hn. unfold residual. apply zlen_map_zrange. exact Hn. Qed.
Lemma residual_at (A : mat S) n b x i : (0 <= i < n)%Z ->
  vec_of (residual A n b x) i = vec_of b i - mat_vec A n (vec_of x) i.
Proof. intros Hi. unfold residual. unfold vec_of at 1. now rewrite zn_map_zrange by lia. Qed.

Lemma residual_start (A : mat S) n b x : zlen b = n ->
  zipw ssub b (mat_list A n x) = residual A n b x.
Proof.
  intros Hb. unfold zipw, residual. rewrite Hb. apply map_ext_in. intros i Hi. apply In_zrange in Hi.
  rewrite mat_list_at by lia. reflexivity.
Qed.

Lemma residual_step (A : mat S) n b x p alpha : (0 <= n)%Z -> zlen x = n ->
  zipw (fun a c => a - alpha * c) (residual A n b x) (mat_list A n p) =
  residual A n b (zipw (fun a c => a + alpha * c) x p).
Proof.
  intros Hn Hx. unfold zipw at 1. rewrite zlen_residual by lia. unfold residual at 2.
  apply map_ext_in. intros i Hi. apply In_zrange in Hi. rewrite residual_at, mat_list_at by lia.
  rewrite (mat_vec_ext A A n (vec_of (zipw (fun a c => a + alpha * c) x p))
             (fun j => vec_of x j + alpha * vec_of p j)).
  - rewrite mat_vec_axpy. ring.
  - intros j Hj. reflexivity.
  - intros j Hj. rewrite zipw_at by lia. reflexivity.
Qed.

End Ring.

End SolverProofs.
