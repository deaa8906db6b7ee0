(** Proofs about LOBPCG. *)

From Coq Require Import ZArith List Bool Lia.
From Verif Require Import Base Scalar Spec LoopFacts Dense Sparse Par ParSpec ParProofs ParSplitProofs HypreTransposeSpec LifeProofs ParMatvec ParMatvecSpec ParMatvecProofs Lobpcg LobpcgSpec.
Import ListNotations.
Open Scope Z_scope.

Lemma list_zn {A} (d : A) (l l' : list A) : zlen l = zlen l' -> (forall i, 0 <= i < zlen l -> zn d l i = zn d l' i) -> l = l'.
Proof.
  intros L H. apply (nth_ext _ _ d d); [unfold zlen in L; lia|]. intros k Hk. specialize (H (Z.of_nat k)). unfold zn in H. rewrite Nat2Z.id in H. apply H. unfold zlen. lia.
Qed.

Section Lobpcg.
Context {S : scalar}.
Notation T := (car S).
Notation parmat := (parmat S).
Notation dvec := (list (list T)).
Implicit Types As : list parmat.

Lemma holds_unique part As (u v : dvec) X : holds part As u X -> holds part As v X -> u = v.
Proof.
  intros (Fu & Hu) (Fv & Hv). pose proof (proj1 Fu) as Lu. pose proof (proj1 Fv) as Lv. apply (list_zn []); [congruence|]. intros r Hr.
  pose proof (fits_len _ _ _ Fu r ltac:(lia)) as E1. pose proof (fits_len _ _ _ Fv r ltac:(lia)) as E2.
  apply (list_zn s0); [congruence|]. intros i Hi.
  rewrite (Hu r (zn pm_none As r) _ i), (Hv r (zn pm_none As r) _ i); auto; try (apply get_ok; lia); try (apply at_rank; lia). congruence.
Qed.

Lemma holds_some M N As (u : dvec) : distributed M N As -> fits pm_rs As u -> exists X, holds pm_rs As u X.
Proof.
  intros D F. exists (fun j => match owner pm_rs As j with Some q => zn s0 (zn [] u q) (j - zn 0 (pm_rs (zn pm_none As q)) 0) | None => s0 end).
  split; [exact F|]. intros r A v i EA Ev Hi. pose proof (get_Ok_inv pm_none _ _ _ EA) as (Hr & ->). pose proof (get_Ok_inv [] _ _ _ Ev) as (_ & ->).
  pose proof (fits_len _ _ _ F r Hr) as L. unfold owner. destruct (find _ _) as [q|] eqn:E.
  - apply find_some in E. destruct E as (Hq & E). apply In_zrange in Hq. apply andb_prop in E. destruct E as (E1 & E2). apply Z.leb_le in E1. apply Z.ltb_lt in E2.
    destruct (Z.eq_dec q r) as [->|W]; [f_equal; lia|]. exfalso. pose proof (ds_rows _ _ _ D r q _ _ ltac:(congruence) EA (at_rank As q Hq)) as [K|K]; lia.
  - exfalso. pose proof (find_none _ _ E r ltac:(apply In_zrange; lia)) as W. cbv beta in W. apply andb_false_iff in W. destruct W as [W|W]; [apply Z.leb_gt in W|apply Z.ltb_ge in W]; lia.
Qed.

Lemma get_mapped {A B} (f : A -> B) d (l : list A) i : 0 <= i < zlen l -> get (map f l) i = Ok (f (zn d l i)).
Proof. intros Hi. rewrite (get_map f), (get_ok d) by exact Hi. reflexivity. Qed.

Lemma ranks_list {A} (d : A) (l : list A) (f : Z -> res A) : (forall r, 0 <= r < zlen l -> f r = Ok (zn d l r)) -> ranks (zlen l) f = Ok l.
Proof.
  intros H. rewrite (ranks_ok _ _ (fun r => zn d l r) H). f_equal. pose proof (zlen_nonneg l). apply (list_zn d); [apply zlen_map_zrange; lia|].
  intros i Hi. rewrite zlen_map_zrange in Hi by lia. now rewrite zn_map_zrange by lia.
Qed.

Lemma views_fits H M N As x : distributed M N As -> fits pm_rs As x -> views (mat_op H As) x = Ok x.
Proof.
  intros D F. unfold views. apply (ranks_list []). intros r Hr. pose proof (proj1 F) as Lx. rewrite (get_ok []) by lia. cbn [bind mat_op po_rows].
  rewrite (get_mapped _ pm_none) by lia. cbn [bind]. destruct (drows _ _ _ D r ltac:(lia)) as (E1 & _). pose proof (fits_len _ _ _ F r ltac:(lia)) as L. rewrite E1, <- L, Z.leb_refl.
  f_equal. unfold zlen. rewrite Nat2Z.id. apply firstn_all.
Qed.

Lemma merged_fits As z y : fits pm_rs As z -> fits pm_rs As y -> merged z y = Ok z.
Proof.
  intros Fz Fy. pose proof (proj1 Fz) as Lz. pose proof (proj1 Fy) as Ly. unfold merged. replace (zlen y) with (zlen z) by congruence. apply (ranks_list []). intros r Hr.
  rewrite !(get_ok []) by lia. cbn [bind]. f_equal. pose proof (fits_len _ _ _ Fz r ltac:(lia)) as E1. pose proof (fits_len _ _ _ Fy r ltac:(lia)) as E2.
  rewrite skipn_all2 by (unfold zlen in *; lia). apply app_nil_r.
Qed.

Lemma call_fits H M N As f x y z : distributed M N As -> fits pm_rs As x -> fits pm_rs As y -> f x y = Ok z -> fits pm_rs As z -> call (mat_op H As) f x y = Ok z.
Proof.
  intros D Fx Fy E Fz. unfold call. rewrite (views_fits H M N As x D Fx), (views_fits H M N As y D Fy). cbn [bind]. rewrite E. cbn [bind]. exact (merged_fits As z y Fz Fy).
Qed.

Lemma same_split_fits As v : same_split As -> fits pm_rs As v -> fits pm_cs As v.
Proof. intros E (L & F). split; [exact L|]. intros r A d EA Ed. rewrite <- (E r A EA). exact (F r A d EA Ed). Qed.

Lemma same_split_holds As v X : same_split As -> holds pm_rs As v X -> holds pm_cs As v X.
Proof.
  intros E (F & H). split; [now apply same_split_fits|]. intros r A d i EA Ed Hi. rewrite <- (E r A EA). exact (H r A d i EA Ed Hi).
Qed.

Lemma same_split_tiles As n : same_split As -> tiles pm_rs n As -> tiles pm_cs n As.
Proof. intros E C i Hi. destruct (C i Hi) as (r & A & EA & B). exists r, A. split; [exact EA|]. now rewrite <- (E r A EA). Qed.

Lemma mat_product H N As op x y : multiplies H -> distributed N N As -> same_split As -> tiles pm_rs N As -> product_with As N op ->
  fits pm_rs As x -> fits pm_rs As y -> view_mult H As x y = Ok (op x) /\ fits pm_rs As (op x).
Proof.
  intros MU D E C PW Fx Fy. destruct (holds_some N N As x D Fx) as (X & HX). pose proof (PW x X HX) as Hop.
  destruct (view_mult_value H N N As x y X MU D (same_split_tiles As N E C) E (same_split_holds As x X E HX) Fy) as (z & Ez & Hz).
  rewrite (holds_unique _ _ _ _ _ Hz Hop) in Ez. split; [exact Ez|apply Hop].
Qed.

Lemma solve_answer H N As op m pre t n : multiplies H -> distributed N N As -> same_split As -> tiles pm_rs N As -> product_with As N op -> preconditions As m pre ->
  polite As n (m <> None) t -> solve (mat_op H As) m t = Ok (answer op pre t).
Proof.
  intros MU D E C PW PC. induction t as [e vs st|x y k IH|b x k IH]; cbn [polite solve answer].
  - reflexivity.
  - intros (Fx & Fy & P). destruct (mat_product H N As op x y MU D E C PW Fx Fy) as (Ez & Fz).
    cbn [mat_op po_mult]. rewrite (call_fits H N N As _ x y (op x) D Fx Fy Ez Fz). cbn [bind]. apply IH. now apply P.
  - intros (Hm & Fb & Fx & P). destruct m as [f|]; [|congruence]. destruct (PC b x Fb Fx) as (Ez & Fz).
    rewrite (call_fits H N N As _ b x (pre b) D Fb Fx Ez Fz). cbn [bind]. apply IH. now apply P.
Qed.

Lemma answer_polite As op m pre N t n : distributed N N As -> product_with As N op -> preconditions As m pre -> polite As n (m <> None) t ->
  zlen (fst (answer op pre t)) = n /\ zlen (snd (answer op pre t)) = n /\ forall v, In v (snd (answer op pre t)) -> fits pm_rs As v.
Proof.
  intros D PW PC. induction t as [e vs st|x y k IH|b x k IH]; cbn [polite answer fst snd].
  - auto.
  - intros (Fx & Fy & P). apply IH. apply P. destruct (holds_some N N As x D Fx) as (X & HX). apply (PW x X HX).
  - intros (Hm & Fb & Fx & P). destruct m as [f|]; [|congruence]. destruct (PC b x Fb Fx) as (_ & Fz). apply IH. now apply P.
Qed.

(* ---------------------------------------------------------------- copies *)

Lemma copy_loop (src dst : list T) n : 0 <= n -> n <= zlen src -> n <= zlen dst ->
  returns (for_ 0 n dst (fun k d => v <- get src k ;; set d k v))
    (fun d => zlen d = zlen dst /\ forall i, 0 <= i -> zn s0 d i = if i <? n then zn s0 src i else zn s0 dst i).
Proof.
  intros H0 H1 H2. apply (returns_for (fun k d => zlen d = zlen dst /\ forall i, 0 <= i -> zn s0 d i = if i <? k then zn s0 src i else zn s0 dst i)); [exact H0| | |auto].
  - split; [reflexivity|]. intros i Hi. destruct (Z.ltb_spec i 0); [lia|reflexivity].
  - intros k d Hk (L & Hd). rewrite (get_ok s0) by lia. cbn [bind]. rewrite set_ok by lia. cbn [returns]. split; [now rewrite zlen_upd'|].
    intros i Hi. rewrite zn_upd by lia. rewrite (Hd i Hi). destruct (Z.eqb_spec i k) as [->|]; [destruct (Z.ltb_spec k (k + 1)); [reflexivity|lia]|].
    destruct (Z.ltb_spec i k), (Z.ltb_spec i (k + 1)); try reflexivity; lia.
Qed.

Lemma zn_end {A} (d : A) l i : zlen l <= i -> zn d l i = d.
Proof. intros H. unfold zn. apply nth_overflow. unfold zlen in H. lia. Qed.

Lemma copy_in_ok (x : list T) n : zlen x <= n -> exists d, copy_in x (repeat s0 (Z.to_nat n)) = Ok d /\ zlen d = n /\ forall k, 0 <= k -> zn s0 d k = zn s0 x k.
Proof.
  intros L. pose proof (zlen_nonneg x) as Z0. unfold copy_in. assert (E : zlen (repeat (@s0 S) (Z.to_nat n)) = n) by (unfold zlen; rewrite repeat_length; lia).
  pose proof (copy_loop x (repeat s0 (Z.to_nat n)) (zlen x) Z0 ltac:(lia) ltac:(lia)) as R. destruct (for_ _ _ _ _) as [d|]; [|contradiction]. destruct R as (Ld & Hd).
  exists d. split; [reflexivity|]. split; [congruence|]. intros k Hk. rewrite (Hd k Hk). destruct (Z.ltb_spec k (zlen x)); [reflexivity|]. rewrite (zn_end s0 x) by lia.
  destruct (Z.lt_ge_cases k n); [now rewrite zn_repeat by lia|now rewrite zn_end by lia].
Qed.

(** More elements than the target has. *)
Lemma copy_in_long (x dst : list T) : zlen dst < zlen x -> copy_in x dst = Fail FUB.
Proof.
  intros L. pose proof (zlen_nonneg dst) as Z0. unfold copy_in. rewrite (for_split 0 (zlen dst)) by lia.
  pose proof (copy_loop x dst (zlen dst) Z0 ltac:(lia) ltac:(lia)) as R. destruct (for_ 0 (zlen dst) _ _) as [d|]; [|contradiction]. destruct R as (Ld & _). cbn [bind].
  unfold for_. rewrite (zrange_cons (zlen dst)) by lia. cbn [foldM]. rewrite (get_ok s0) by lia. cbn [bind]. unfold set.
  rewrite Ld, Z.ltb_irrefl, andb_false_r. reflexivity.
Qed.

Lemma copy_out_ok (v x : list T) : zlen x <= zlen v -> exists y, copy_out v x = Ok y /\ zlen y = zlen x /\ forall k, 0 <= k < zlen x -> zn s0 y k = zn s0 v k.
Proof.
  intros L. pose proof (zlen_nonneg x) as Z0. unfold copy_out. pose proof (copy_loop v x (zlen x) Z0 L ltac:(lia)) as R. destruct (for_ _ _ _ _) as [y|]; [|contradiction].
  destruct R as (Ly & Hy). exists y. split; [reflexivity|]. split; [exact Ly|]. intros k Hk. rewrite (Hy k) by lia. destruct (Z.ltb_spec k (zlen x)); [reflexivity|lia].
Qed.

(** Every rank (vector) has a result with some property. *)
Lemma ranks_some {A} (d : A) p (f : Z -> res A) (Q : Z -> A -> Prop) : 0 <= p -> (forall r, 0 <= r < p -> exists a, f r = Ok a /\ Q r a) ->
  exists l, ranks p f = Ok l /\ zlen l = p /\ forall r, 0 <= r < p -> Q r (zn d l r).
Proof.
  intros Hp H. exists (map (fun r => match f r with Ok a => a | Fail _ => d end) (zrange 0 p)). split; [|split].
  - apply ranks_ok. intros r Hr. destruct (H r Hr) as (a & -> & _). reflexivity.
  - now apply zlen_map_zrange.
  - intros r Hr. rewrite zn_map_zrange by exact Hr. destruct (H r Hr) as (a & -> & Qa). exact Qa.
Qed.

Lemma In_zn_list {A} (d : A) (l : list A) a : In a l -> exists i, 0 <= i < zlen l /\ zn d l i = a.
Proof. apply In_zn. Qed.

Lemma start_vectors H M N As xs : distributed M N As -> within As xs ->
  exists mv, ranks (zlen xs) (fun i => xi <- get xs i ;; ranks (zlen (po_starts (mat_op H As))) (fun r => x <- get xi r ;; st <- get (po_starts (mat_op H As)) r ;; a <- get st 0 ;; b <- get st 1 ;;
    d <- vec (b - a) s0 ;; copy_in x d)) = Ok mv /\ padded As xs mv.
Proof.
  intros D W. cbn [mat_op po_starts]. rewrite zlen_map.
  destruct (ranks_some (A := dvec) [] (zlen xs) (fun i => xi <- get xs i ;; ranks (zlen As) (fun r => x <- get xi r ;; st <- get (map pm_rs As) r ;; a <- get st 0 ;; b <- get st 1 ;;
    d <- vec (b - a) s0 ;; copy_in x d)) (fun i v => fits pm_rs As v /\ forall r k, 0 <= r < zlen As -> 0 <= k -> zn s0 (zn [] v r) k = zn s0 (zn [] (zn [] xs i) r) k) (zlen_nonneg xs)) as (mv & E & L & Q).
  { intros i Hi. rewrite (get_ok (@nil (list T))) by lia. cbn [bind]. destruct (W (zn [] xs i)) as (Lx & Hx); [now apply zn_In|].
    destruct (ranks_some (A := list T) [] (zlen As) (fun r => x <- get (zn [] xs i) r ;; st <- get (map pm_rs As) r ;; a <- get st 0 ;; b <- get st 1 ;; d <- vec (b - a) s0 ;; copy_in x d)
      (fun r d => zlen d = zn 0 (pm_rs (zn pm_none As r)) 1 - zn 0 (pm_rs (zn pm_none As r)) 0 /\ forall k, 0 <= k -> zn s0 d k = zn s0 (zn [] (zn [] xs i) r) k) (zlen_nonneg As)) as (v & Ev & Lv & Qv).
    - intros r Hr. rewrite (get_ok []) by lia. cbn [bind]. rewrite (get_mapped _ pm_none) by exact Hr. cbn [bind].
      destruct (ds_valid _ _ _ D r _ (at_rank As r Hr)) as (V & _). pose proof (pv_rs _ V) as L3. rewrite !(get_ok 0) by lia. cbn [bind].
      pose proof (pv_rrange _ V) as B. rewrite vec_ok by lia. cbn [bind]. specialize (Hx r _ (zn [] (zn [] xs i) r) (at_rank As r Hr) ltac:(apply get_ok; lia)).
      unfold pm_rows in Hx. pose proof (pv_drows _ V) as Ed. destruct (copy_in_ok (zn [] (zn [] xs i) r) (zn 0 (pm_rs (zn pm_none As r)) 1 - zn 0 (pm_rs (zn pm_none As r)) 0) ltac:(lia)) as (d & Ec & Ld & Hd).
      exists d. auto.
    - exists v. split; [exact Ev|]. split; [|intros r k Hr; now apply Qv]. split; [exact Lv|]. intros r A d EA Ed. pose proof (get_Ok_inv pm_none _ _ _ EA) as (Hr & ->).
      pose proof (get_Ok_inv [] _ _ _ Ed) as (_ & ->). now apply Qv. }
  exists mv. split; [exact E|]. split; [exact L|]. split.
  - intros v Hv. destruct (In_zn [] _ _ Hv) as (i & Hi & <-). apply Q. lia.
  - intros i r k Hi Hr Hk. apply Q; lia.
Qed.

Lemma padded_unique As xs u v : padded As xs u -> padded As xs v -> u = v.
Proof.
  intros (Lu & Fu & Hu) (Lv & Fv & Hv). apply (list_zn []); [congruence|]. intros i Hi.
  assert (F1 : fits pm_rs As (zn [] u i)) by (apply Fu; now apply zn_In). assert (F2 : fits pm_rs As (zn [] v i)) by (apply Fv; apply zn_In; lia).
  pose proof (proj1 F1) as L1. pose proof (proj1 F2) as L2. apply (list_zn []); [congruence|]. intros r Hr.
  pose proof (fits_len _ _ _ F1 r ltac:(lia)) as E1. pose proof (fits_len _ _ _ F2 r ltac:(lia)) as E2. apply (list_zn s0); [congruence|]. intros k Hk.
  rewrite Hu, Hv by lia. reflexivity.
Qed.

Lemma end_vectors H M N As xs vs : distributed M N As -> within As xs -> zlen vs = zlen xs -> (forall v, In v vs -> fits pm_rs As v) ->
  exists ys, ranks (zlen xs) (fun i => xi <- get xs i ;; vi <- get vs i ;; ranks (zlen (po_starts (mat_op H As))) (fun r => x <- get xi r ;; v <- get vi r ;; copy_out v x)) = Ok ys /\ leading xs vs ys.
Proof.
  intros D W Lvs Fvs. cbn [mat_op po_starts]. rewrite zlen_map.
  destruct (ranks_some (A := dvec) [] (zlen xs) (fun i => xi <- get xs i ;; vi <- get vs i ;; ranks (zlen As) (fun r => x <- get xi r ;; v <- get vi r ;; copy_out v x))
    (fun i y => zlen y = zlen As /\ forall r, 0 <= r < zlen As -> zlen (zn [] y r) = zlen (zn [] (zn [] xs i) r) /\ forall k, 0 <= k < zlen (zn [] (zn [] xs i) r) -> zn s0 (zn [] y r) k = zn s0 (zn [] (zn [] vs i) r) k) (zlen_nonneg xs)) as (ys & E & L & Q).
  { intros i Hi. rewrite !(get_ok (@nil (list T))) by lia. cbn [bind]. destruct (W (zn [] xs i)) as (Lx & Hx); [now apply zn_In|].
    assert (F : fits pm_rs As (zn [] vs i)) by (apply Fvs; apply zn_In; lia). pose proof (proj1 F) as Lv.
    apply (ranks_some (A := list T) [] (zlen As) _ (fun r y => zlen y = zlen (zn [] (zn [] xs i) r) /\ forall k, 0 <= k < zlen (zn [] (zn [] xs i) r) -> zn s0 y k = zn s0 (zn [] (zn [] vs i) r) k) (zlen_nonneg As)).
    intros r Hr. rewrite !(get_ok []) by lia. cbn [bind]. apply copy_out_ok. destruct (ds_valid _ _ _ D r _ (at_rank As r Hr)) as (V & _). pose proof (pv_drows _ V) as Ed.
    specialize (Hx r _ (zn [] (zn [] xs i) r) (at_rank As r Hr) ltac:(apply get_ok; lia)). unfold pm_rows in Hx. rewrite (fits_len _ _ _ F r Hr). lia. }
  exists ys. split; [exact E|]. split; [exact L|]. intros i Hi. destruct (W (zn [] xs i)) as (Lx & _); [now apply zn_In|]. destruct (Q i Hi) as (Ly & Qi). split; [congruence|].
  intros r Hr. apply Qi. lia.
Qed.

Lemma lobpcg_value hl H N As op m pre xs mv : multiplies H -> distributed N N As -> same_split As -> tiles pm_rs N As -> product_with As N op -> preconditions As m pre ->
  within As xs -> padded As xs mv -> polite As (zlen xs) (m <> None) (hl mv) ->
  exists ys, lobpcg hl (mat_op H As) m xs = Ok (fst (answer op pre (hl mv)), ys) /\ leading xs (snd (answer op pre (hl mv))) ys.
Proof.
  intros MU D E C PW PC W P Po. unfold lobpcg. cbv zeta. destruct (start_vectors H N N As xs D W) as (mv' & Em & Pm). rewrite Em. cbn [bind].
  rewrite (padded_unique As xs mv' mv Pm P). rewrite (solve_answer H N As op m pre (hl mv) (zlen xs) MU D E C PW PC Po). cbn [bind].
  destruct (answer_polite As op m pre N (hl mv) (zlen xs) D PW PC Po) as (_ & Lv & Fv).
  destruct (end_vectors H N N As xs (snd (answer op pre (hl mv))) D W Lv Fv) as (ys & Ey & Ly). rewrite Ey. cbn [bind]. exists ys. auto.
Qed.

Lemma ranks_fault {A} e p (f : Z -> res A) : (forall r, 0 <= r < p -> (exists a, f r = Ok a) \/ f r = Fail e) ->
  (exists r, 0 <= r < p /\ f r = Fail e) -> ranks p f = Fail e.
Proof.
  intros H (r & Hr & E). unfold ranks. rewrite (zrange_app 0 r p) by lia. rewrite foldM_app.
  assert (H' : forall acc : list A, exists l, foldM (fun acc r => x <- f r ;; Ok (acc ++ [x])) (zrange 0 r) acc = Ok l \/
                         foldM (fun acc r => x <- f r ;; Ok (acc ++ [x])) (zrange 0 r) acc = Fail e).
  { assert (G : forall q, In q (zrange 0 r) -> (exists a, f q = Ok a) \/ f q = Fail e) by (intros q Hq; apply In_zrange in Hq; apply H; lia).
    induction (zrange 0 r) as [|q l IH]; intros acc; cbn [foldM]; [exists acc; auto|].
    destruct (G q) as [(a & ->)| ->]; [now left| |]; cbn [bind].
    - apply IH. intros q' Hq'. apply G. now right.
    - exists []. now right. }
  specialize (H' []).
  destruct H' as (l & [-> | ->]); cbn [bind]; [|reflexivity].
  rewrite zrange_cons by lia. cbn [foldM]. rewrite E. reflexivity.
Qed.

Lemma ranks_either {A} e p (f : Z -> res A) : (forall r, 0 <= r < p -> (exists a, f r = Ok a) \/ f r = Fail e) -> (exists l, ranks p f = Ok l) \/ ranks p f = Fail e.
Proof.
  intros H. unfold ranks. assert (G : forall q, In q (zrange 0 p) -> (exists a, f q = Ok a) \/ f q = Fail e) by (intros q Hq; apply In_zrange in Hq; apply H; lia).
  enough (K : forall acc : list A, (exists l, foldM (fun acc r => x <- f r ;; Ok (acc ++ [x])) (zrange 0 p) acc = Ok l) \/ foldM (fun acc r => x <- f r ;; Ok (acc ++ [x])) (zrange 0 p) acc = Fail e) by exact (K []).
  induction (zrange 0 p) as [|q l IH]; intros acc; cbn [foldM]; [left; now exists acc|].
  destruct (G q) as [(a & ->)| ->]; [now left| |]; cbn [bind]; [|now right]. apply IH. intros q' Hq'. apply G. now right.
Qed.

(** A start vector with more elements than the rank has rows. *)
Lemma lobpcg_long hl H M N As m xs i r x d A : distributed M N As -> (forall x, In x xs -> zlen x = zlen As) ->
  get xs i = Ok x -> get x r = Ok d -> get As r = Ok A -> pm_rows A < zlen d -> lobpcg hl (mat_op H As) m xs = Fail FUB.
Proof.
  intros D Lx Ex Ed EA Hl. unfold lobpcg. cbv zeta. cbn [mat_op po_starts]. rewrite zlen_map.
  assert (G : forall j, 0 <= j < zlen xs -> forall q, 0 <= q < zlen As -> exists y,
    (x <- get (zn [] xs j) q ;; st <- get (map pm_rs As) q ;; a <- get st 0 ;; b <- get st 1 ;; d <- vec (b - a) s0 ;; copy_in x d) = copy_in y (repeat s0 (Z.to_nat (pm_rows (zn pm_none As q)))) /\
    get (zn [] xs j) q = Ok y /\ 0 <= pm_rows (zn pm_none As q)).
  { intros j Hj q Hq. pose proof (Lx (zn [] xs j) (zn_In [] _ _ Hj)) as Lj. exists (zn [] (zn [] xs j) q). rewrite (get_ok []) by lia. cbn [bind]. rewrite (get_mapped _ pm_none) by exact Hq. cbn [bind].
    destruct (ds_valid _ _ _ D q _ (at_rank As q Hq)) as (V & _). pose proof (pv_rs _ V) as L3. rewrite !(get_ok 0) by lia. cbn [bind].
    pose proof (pv_rrange _ V) as B. rewrite vec_ok by lia. cbn [bind]. unfold pm_rows. rewrite (pv_drows _ V). split; [reflexivity|]. split; [reflexivity|lia]. }
  assert (K : forall (y : list T) n, 0 <= n -> (exists a, copy_in y (repeat s0 (Z.to_nat n)) = Ok a) \/ copy_in y (repeat s0 (Z.to_nat n)) = Fail FUB).
  { intros y n Hn. destruct (Z.le_gt_cases (zlen y) n) as [L|L]; [left; destruct (copy_in_ok y n L) as (a & Ea & _); eauto|].
    right. apply copy_in_long. unfold zlen in *. rewrite repeat_length. lia. }
  pose proof (get_Ok_inv [] _ _ _ Ex) as (Hi & ->). pose proof (get_Ok_inv pm_none _ _ _ EA) as (Hr & ->).
  rewrite ranks_fault with (e := FUB); [reflexivity| |].
  - intros j Hj. rewrite (get_ok (@nil (list T))) by lia. cbn [bind].
    assert (Q : forall q, 0 <= q < zlen As -> (exists a, (x <- get (zn [] xs j) q ;; st <- get (map pm_rs As) q ;; a <- get st 0 ;; b <- get st 1 ;; d <- vec (b - a) s0 ;; copy_in x d) = Ok a) \/
      (x <- get (zn [] xs j) q ;; st <- get (map pm_rs As) q ;; a <- get st 0 ;; b <- get st 1 ;; d <- vec (b - a) s0 ;; copy_in x d) = Fail FUB).
    { intros q Hq. destruct (G j Hj q Hq) as (y & -> & _ & Hn). now apply K. }
    now apply ranks_either.
  - exists i. split; [exact Hi|]. rewrite (get_ok (@nil (list T))) by lia. cbn [bind]. apply ranks_fault.
    + intros q Hq. destruct (G i Hi q Hq) as (y & -> & _ & Hn). now apply K.
    + exists r. split; [exact Hr|]. destruct (G i Hi r Hr) as (y & -> & Ey & Hn). rewrite Ey in Ed. injection Ed as ->. apply copy_in_long. unfold zlen in *. rewrite repeat_length. lia.
Qed.

(** A matrix that has not as many local columns as local rows. *)
Lemma lobpcg_rectangular hl H M N As m xs mv x y k r A : distributed M N As -> within As xs -> padded As xs mv -> hl mv = Matvec x y k ->
  fits pm_rs As x -> fits pm_rs As y -> get As r = Ok A -> pm_rows A <> pm_cols A -> lobpcg hl (mat_op H As) m xs = Fail FAssert.
Proof.
  intros D W P Eh Fx Fy EA Hne. unfold lobpcg. cbv zeta. destruct (start_vectors H M N As xs D W) as (mv' & -> & Pm). cbn [bind].
  rewrite (padded_unique As xs mv' mv Pm P), Eh. cbn [solve]. unfold call. rewrite (views_fits H M N As x D Fx), (views_fits H M N As y D Fy). cbn [bind mat_op po_mult].
  unfold view_mult. cbv zeta. pose proof (proj1 Fx) as Lx. pose proof (proj1 Fy) as Ly. rewrite ranks_fail; [reflexivity| |].
  - intros q Hq. rewrite (at_rank As q Hq). cbn [bind]. rewrite !(get_ok []) by lia. cbn [bind].
    destruct (zlen (zn [] x q) =? _); cbn [assert_ bind]; [|now right]. destruct (zlen (zn [] y q) =? _); cbn [assert_ bind]; [left; eauto|now right].
  - pose proof (get_Ok_inv pm_none _ _ _ EA) as (Hr & ->). exists r. split; [exact Hr|]. rewrite (at_rank As r Hr). cbn [bind]. rewrite !(get_ok []) by lia. cbn [bind].
    pose proof (fits_len _ _ _ Fx r Hr) as L. destruct (ds_valid _ _ _ D r _ EA) as (V & _). pose proof (pv_drows _ V). unfold pm_rows, pm_cols in Hne.
    destruct (Z.eqb_spec (zlen (zn [] x r)) (c_cols (pm_diag (zn pm_none As r)))); [lia|reflexivity].
Qed.

(** The overload that makes the start vectors itself. *)
Lemma random_vectors H M N (rnd : Z -> Z -> Z -> T) As n : distributed M N As -> 0 <= n ->
  exists xs, ranks n (fun i => ranks (zlen (po_starts (mat_op H As))) (fun r => m <- get (po_rows (mat_op H As)) r ;; d <- vec m s0 ;; for_ 0 m d (fun k d => set d k (rnd i r k)))) = Ok xs /\
    zlen xs = n /\ forall i, 0 <= i < n -> fits pm_rs As (zn [] xs i) /\ forall r k, 0 <= r < zlen As -> 0 <= k < zlen (zn [] (zn [] xs i) r) -> zn s0 (zn [] (zn [] xs i) r) k = rnd i r k.
Proof.
  intros D Hn. cbn [mat_op po_starts po_rows]. rewrite zlen_map. apply (ranks_some (A := dvec) [] n _
    (fun i x => fits pm_rs As x /\ forall r k, 0 <= r < zlen As -> 0 <= k < zlen (zn [] x r) -> zn s0 (zn [] x r) k = rnd i r k) Hn). intros i Hi.
  destruct (ranks_some (A := list T) [] (zlen As) (fun r => m <- get (map (fun A => c_rows (pm_diag A)) As) r ;; d <- vec m s0 ;; for_ 0 m d (fun k d => set d k (rnd i r k)))
    (fun r d => zlen d = c_rows (pm_diag (zn pm_none As r)) /\ forall k, 0 <= k < zlen d -> zn s0 d k = rnd i r k) (zlen_nonneg As)) as (x & Ex & Lx & Q).
  - intros r Hr. rewrite (get_mapped _ pm_none) by exact Hr. cbn [bind]. destruct (ds_valid _ _ _ D r _ (at_rank As r Hr)) as (V & _). pose proof (pv_drows _ V) as Ed. pose proof (pv_rrange _ V) as B.
    set (m := c_rows (pm_diag (zn pm_none As r))) in *. rewrite vec_ok by lia. cbn [bind].
    assert (R : returns (for_ 0 m (repeat s0 (Z.to_nat m)) (fun k d => set d k (rnd i r k))) (fun d => zlen d = m /\ forall k, 0 <= k < m -> zn s0 d k = rnd i r k)).
    { apply (returns_for (fun j d => zlen d = m /\ forall k, 0 <= k < j -> zn s0 d k = rnd i r k)); [lia| | |auto].
      - split; [unfold zlen; rewrite repeat_length; lia|intros; lia].
      - intros j d Hj (L & Hd). rewrite set_ok by lia. cbn [returns]. split; [now rewrite zlen_upd'|]. intros k Hk. rewrite zn_upd by lia. destruct (Z.eqb_spec k j) as [->|]; [reflexivity|apply Hd; lia]. }
    destruct (for_ _ _ _ _) as [d|]; [|contradiction]. destruct R as (L & Hd). exists d. split; [reflexivity|]. split; [exact L|]. rewrite L. exact Hd.
  - exists x. split; [exact Ex|]. split.
    + split; [exact Lx|]. intros r A d EA Ed. pose proof (get_Ok_inv pm_none _ _ _ EA) as (Hr & ->). pose proof (get_Ok_inv [] _ _ _ Ed) as (_ & ->). destruct (Q r Hr) as (L & _).
      destruct (ds_valid _ _ _ D r _ EA) as (V & _). pose proof (pv_drows _ V). lia.
    + intros r k Hr Hk. now apply Q.
Qed.

Lemma fits_within As xs : (forall A r, get As r = Ok A -> pm_valid A) -> (forall x, In x xs -> fits pm_rs As x) -> within As xs.
Proof.
  intros V F x Hx. destruct (F x Hx) as (L & E). split; [exact L|]. intros r A d EA Ed. rewrite (E r A d EA Ed). unfold pm_rows. rewrite (pv_drows _ (V A r EA)). lia.
Qed.

Lemma lobpcg_random_value rnd hl H N As op m pre n : multiplies H -> distributed N N As -> same_split As -> tiles pm_rs N As -> product_with As N op -> preconditions As m pre ->
  0 <= n -> exists mv, zlen mv = n /\ (forall i, 0 <= i < n -> fits pm_rs As (zn [] mv i) /\ forall r k, 0 <= r < zlen As -> 0 <= k < zlen (zn [] (zn [] mv i) r) -> zn s0 (zn [] (zn [] mv i) r) k = rnd i r k) /\
  (polite As n (m <> None) (hl mv) -> lobpcg_random rnd hl (mat_op H As) m n = Ok (fst (answer op pre (hl mv)))).
Proof.
  intros MU D E C PW PC Hn. destruct (random_vectors H N N rnd As n D Hn) as (xs & Ex & Lx & Q). exists xs. split; [exact Lx|]. split; [exact Q|]. intros Po. unfold lobpcg_random. rewrite Ex. cbn [bind].
  assert (F : forall x, In x xs -> fits pm_rs As x) by (intros x Hx; destruct (In_zn [] _ _ Hx) as (i & Hi & <-); apply Q; lia).
  assert (P : padded As xs xs) by (split; [reflexivity|]; split; [exact F|reflexivity]). rewrite <- Lx in Po.
  destruct (lobpcg_value hl H N As op m pre xs xs MU D E C PW PC) as (ys & -> & _); auto.
  apply fits_within; [|exact F]. intros A r EA. apply (ds_valid _ _ _ D r A EA).
Qed.

Lemma status_ignored (P : parop S) m t s : solve P m (with_status s t) = solve P m t.
Proof.
  induction t as [e vs st|x y k IH|b x k IH]; cbn [with_status solve]; [reflexivity| |].
  - destruct (call P (po_mult P) x y) as [z|]; cbn [bind]; [apply IH|reflexivity].
  - destruct m as [f|]; [|reflexivity]. destruct (call P f b x) as [z|]; cbn [bind]; [apply IH|reflexivity].
Qed.

Lemma lobpcg_status hl (P : parop S) m xs s : lobpcg (fun mv => with_status s (hl mv)) P m xs = lobpcg hl P m xs.
Proof. unfold lobpcg. cbv zeta. destruct (ranks (zlen xs) _) as [mv|]; cbn [bind]; [|reflexivity]. now rewrite status_ignored. Qed.

End Lobpcg.
