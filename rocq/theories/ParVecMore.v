(** Proofs about the arithmetic of distributed vectors. *)

From Coq Require Import ZArith List Bool Lia Ring Field_theory.
From Verif Require Import Base Scalar Spec SumFacts LoopFacts Vec VecSpec VecProofs VecNum VecLinks Block Solver SolverSpec Par ParSpec ParProofs ParMatvecProofs ParVecProofs ParVec ParVecSpec.
From Verif Require LapProofs.
Import ListNotations.
Open Scope Z_scope.

Section ParVecMore.
Context {S : scalar}.
Notation T := (car S).
Hypothesis R : ring_laws S.
Let Rth : ring_theory (@s0 S) s1 sadd smul ssub sopp (@eq (car S)) := R.
Add Ring ParVecMoreRing : Rth.

Lemma ranks_forall2 {A B} (ws : list A) (f : A -> res B) (P : A -> B -> Prop) : (forall w, In w ws -> exists b, f w = Ok b /\ P w b) ->
  exists l, ranks (zlen ws) (fun r => w <- get ws r ;; f w) = Ok l /\ Forall2 P ws l.
Proof.
  intros H. assert (G : exists l, Forall2 (fun w b => f w = Ok b /\ P w b) ws l).
  { induction ws as [|w ws IH]; [exists []; constructor|]. destruct (H w (or_introl eq_refl)) as (b & Hb). destruct IH as (l & Hl); [intros; apply H; now right|]. exists (b :: l). now constructor. }
  destruct G as (l & Hl). exists l. assert (L : zlen l = zlen ws) by (clear - Hl; unfold zlen; induction Hl; cbn [length]; lia).
  split; [|clear - Hl; induction Hl; constructor; tauto].
  destruct ws as [|w0 ws0] eqn:Ew; [inversion Hl; reflexivity|]. rewrite <- Ew in *. destruct l as [|b0 l0] eqn:El; [subst; inversion Hl|]. rewrite <- El in *.
  rewrite (ranks_ok _ _ (zn b0 l)).
  - f_equal. rewrite <- L. apply map_zn_zrange.
  - intros r Hr. rewrite (get_ok w0) by exact Hr. cbn [bind].
    assert (G : forall q, 0 <= q < zlen ws -> f (zn w0 ws q) = Ok (zn b0 l q)).
    { clear - Hl. intros q Hq. unfold zn. destruct (Z.ltb_spec q 0); [lia|]. unfold zlen in Hq. assert (Hq' : (Z.to_nat q < length ws)%nat) by lia. clear Hq H. revert Hq'. generalize (Z.to_nat q).
      induction Hl as [|w b ws l (Hf & _) _ IH]; intros k Hk; cbn in Hk; [lia|]. destruct k as [|k]; cbn; [exact Hf|]. apply IH. lia. }
    now apply G.
Qed.

Lemma sum_const {A} (d : T) (l : list A) : sum_list (map (fun _ => d) l) = smul (of_int (zlen l)) d.
Proof.
  induction l as [|a l IH]; [change (s0 = smul s0 d); ring|]. rewrite zlen_cons. replace (1 + zlen l) with (zlen l + 1) by lia. cbn [map]. change (sum_list (d :: map (fun _ : A => d) l)) with (sadd d (sum_list (map (fun _ : A => d) l))).
  rewrite IH. rewrite (LapProofs.of_int_succ (S := S)) by apply zlen_nonneg. ring.
Qed.

(* ---------------------------------------------------------------- inner products *)

Lemma plain_mult red (ws : list (heap S * view * view)) : (forall h x y, In (h, x, y) ws -> view_ok h x /\ view_ok h y /\ v_len y = v_len x) ->
  mult_of Plain red ws = Ok (map (fun w => inner (v_len (snd (fst w))) (vat (fst (fst w)) (snd (fst w))) (vat (fst (fst w)) (snd w))) ws).
Proof.
  intros H. destruct ws as [|w0 ws0] eqn:Ew; [reflexivity|]. rewrite <- Ew in *.
  apply (ranks_map w0 ws (fun '(h, x, y) => v_inner h x y)). intros [[h x] y] I. destruct (H h x y I) as (H1 & H2 & H3). now apply (v_inner_ring R).
Qed.

Lemma par_mult_dist red (ws : list (heap S * view * view)) : sums red -> ws <> [] ->
  (forall h x y, In (h, x, y) ws -> view_ok h x /\ view_ok h y /\ v_len y = v_len x) ->
  par_mult_of Dist red ws = Ok (map (fun _ => smul (of_int (zlen ws)) (dot (dist_list (map wx ws)) (dist_list (map wy ws)))) ws).
Proof.
  intros Hs N H. unfold par_mult_of, mult_of. rewrite (par_mult_ok R) by assumption. cbn [bind]. f_equal.
  rewrite (allreduced R red ws (fun _ => dot (dist_list (map wx ws)) (dist_list (map wy ws)))) by assumption. apply map_ext. intros _. apply sum_const.
Qed.

Definition twice (w : heap S * view) : heap S * view * view := let '(h, x) := w in (h, x, x).

Lemma twice_x ws : map wx (map twice ws) = ws.
Proof. rewrite map_map. rewrite <- (map_id ws) at 2. apply map_ext. intros [h x]. reflexivity. Qed.
Lemma twice_y ws : map wy (map twice ws) = ws.
Proof. rewrite map_map. rewrite <- (map_id ws) at 2. apply map_ext. intros [h x]. reflexivity. Qed.
Lemma twice_ok ws : (forall h x, In (h, x) ws -> view_ok h x) -> forall h x y, In (h, x, y) (map twice ws) -> view_ok h x /\ view_ok h y /\ v_len y = v_len x.
Proof. intros H h x y I. apply in_map_iff in I. destruct I as ([h' x'] & Q & I). injection Q as <- <- <-. auto. Qed.

Lemma par_l2norm_dist red root (ws : list (heap S * view)) : sums red -> ws <> [] -> (forall h x, In (h, x) ws -> view_ok h x) ->
  par_l2norm_of Dist red root ws = Ok (map (fun _ => root (smul (of_int (zlen ws)) (dot (dist_list ws) (dist_list ws)))) ws).
Proof.
  intros Hs N H. unfold par_l2norm_of. change (map (fun '(h, x) => (h, x, x)) ws) with (map twice ws).
  rewrite par_mult_dist; [|exact Hs|now apply map_nonempty|now apply twice_ok]. cbn [bind]. rewrite twice_x, twice_y, !map_map, zlen_map. reflexivity.
Qed.

Lemma l2norm_dist red root (ws : list (heap S * view)) : sums red -> ws <> [] -> (forall h x, In (h, x) ws -> view_ok h x) ->
  l2norm_of Dist red root ws = Ok (map (fun _ => root (dot (dist_list ws) (dist_list ws))) ws).
Proof. exact (par_l2norm_ok R red root ws). Qed.

Lemma l2norm_plain red root (ws : list (heap S * view)) : (forall h x, In (h, x) ws -> view_ok h x) ->
  l2norm_of Plain red root ws = Ok (map (fun w => root (inner (v_len (snd w)) (vat (fst w) (snd w)) (vat (fst w) (snd w)))) ws).
Proof.
  intros H. unfold l2norm_of. change (map (fun '(h, x) => (h, x, x)) ws) with (map twice ws). rewrite plain_mult by now apply twice_ok. cbn [bind]. rewrite !map_map.
  f_equal. apply map_ext. intros [h x]. reflexivity.
Qed.

(* ---------------------------------------------------------------- elementwise operations *)

(** The new elements of a rank, seen in its list *)
Lemma new_part (h : heap S) x g h' : view_ok h x -> writes h x g h' -> map (vat h' x) (zrange 0 (v_len x)) = map g (zrange 0 (v_len x)).
Proof.
  intros V W. destruct (W x V) as (_ & G). apply map_ext_in. intros i Hi. apply In_zrange in Hi. rewrite G by lia. unfold inside. rewrite Z.eqb_refl.
  destruct (Z.leb_spec (v_off x) (v_off x + i)); [|lia]. destruct (Z.ltb_spec (v_off x + i) (v_off x + v_len x)); [|lia]. cbn [andb]. f_equal. lia.
Qed.

Lemma after_map (ws : list (heap S * view)) hs (f : T -> T) : (forall h x, In (h, x) ws -> view_ok h x) ->
  Forall2 (fun w h' => writes (fst w) (snd w) (fun i => f (vat (fst w) (snd w) i)) h') ws hs -> dist_list (after ws hs) = map f (dist_list ws).
Proof.
  intros V H. induction H as [|[h x] h' ws hs W _ IH]; [reflexivity|]. unfold after, dist_list in *. cbn [map combine flat_map fst snd] in *. rewrite map_app.
  rewrite IH by (intros; apply V; now right). f_equal. rewrite (new_part h x _ h' (V h x (or_introl eq_refl)) W). now rewrite map_map.
Qed.

Lemma after_zip (ws : list (heap S * view * view)) hs (f : T -> T -> T) : (forall h x y, In (h, x, y) ws -> view_ok h x /\ view_ok h y /\ v_len y = v_len x) ->
  Forall2 (fun w h' => writes (fst (fst w)) (snd (fst w)) (fun i => f (vat (fst (fst w)) (snd (fst w)) i) (vat (fst (fst w)) (snd w) i)) h') ws hs ->
  dist_list (after (map wx ws) hs) = map (fun ab => f (fst ab) (snd ab)) (combine (dist_list (map wx ws)) (dist_list (map wy ws))).
Proof.
  intros V H. induction H as [|[[h x] y] h' ws hs W _ IH]; [reflexivity|]. unfold after, dist_list in *. cbn [map combine flat_map fst snd wx wy] in *.
  destruct (V h x y (or_introl eq_refl)) as (V1 & V2 & E). rewrite combine_app by (rewrite !map_length; now rewrite E). rewrite map_app.
  rewrite IH by (intros; apply V; now right). f_equal. rewrite (new_part h x _ h' V1 W). rewrite E, combine_same, map_map. reflexivity.
Qed.

Lemma everywhere_zip f (op : T -> T -> T) (ws : list (heap S * view * view)) :
  (forall h x y, In (h, x, y) ws -> view_ok h x /\ view_ok h y /\ v_len y = v_len x) ->
  (forall h x y, In (h, x, y) ws -> exists h', f h x y = Ok h' /\ writes h x (fun i => op (vat h x i) (vat h y i)) h') ->
  elementwise op ws (everywhere f ws).
Proof.
  intros V H. destruct (ranks_forall2 ws (fun '(h, x, y) => f h x y) (fun w h' => writes (fst (fst w)) (snd (fst w)) (fun i => op (vat (fst (fst w)) (snd (fst w)) i) (vat (fst (fst w)) (snd w) i)) h')) as (hs & E & P).
  { intros [[h x] y] I. exact (H h x y I). }
  exists hs. split; [exact E|]. split; [exact (after_zip ws hs op V P)|]. clear - P. induction P as [|[[h x] y]]; constructor; assumption.
Qed.

Lemma pv_ops_ok (ws : list (heap S * view * view)) :
  (forall h x y, In (h, x, y) ws -> (view_ok h x /\ view_ok h y /\ v_len y = v_len x) /\ ~ reads_behind x y) ->
  elementwise sadd ws (pv_add ws) /\ elementwise ssub ws (pv_sub ws) /\ elementwise smul ws (pv_mul ws) /\
  ((forall h x y, In (h, x, y) ws -> forall i, 0 <= i < v_len y -> seqb (vat h y i) s0 = false) -> elementwise sdiv ws (pv_div ws)).
Proof.
  intros H. assert (V : forall h x y, In (h, x, y) ws -> view_ok h x /\ view_ok h y /\ v_len y = v_len x) by (intros h x y I; apply (H h x y I)).
  assert (G : forall h x y, In (h, x, y) ws -> _) by (intros h x y I; destruct (H h x y I) as ((V1 & V2 & E) & N); exact (view_ops_write h x y V1 V2 E N)).
  split; [|split; [|split]].
  - apply everywhere_zip; [exact V|]. intros h x y I. apply (G h x y I).
  - apply everywhere_zip; [exact V|]. intros h x y I. apply (G h x y I).
  - apply everywhere_zip; [exact V|]. intros h x y I. apply (G h x y I).
  - intros D. apply everywhere_zip; [exact V|]. intros h x y I. destruct (H h x y I) as ((V1 & V2 & E) & N). apply div_view_writes; auto. exact (D h x y I).
Qed.

Lemma pv_fill_ok t (ws : list (heap S * view)) : (forall h x, In (h, x) ws -> view_ok h x) ->
  exists hs, pv_fill t ws = Ok hs /\ Forall2 (fun w h' => writes (fst w) (snd w) (fun _ => t) h') ws hs /\ dist_list (after ws hs) = map (fun _ => t) (dist_list ws).
Proof.
  intros V. destruct (ranks_forall2 ws (fun '(h, x) => v_fill h x t) (fun w h' => writes (fst w) (snd w) (fun _ => t) h')) as (hs & E & P).
  { intros [h x] I. apply fill_writes. now apply V. }
  exists hs. split; [exact E|]. split; [exact P|]. now apply (after_map ws hs (fun _ => t)).
Qed.

Lemma sub_avg_list red n (ws : list (heap S * view)) : sums red -> ws <> [] -> (forall h x, In (h, x) ws -> view_ok h x) ->
  exists hs, par_sub_avg red n ws = Ok hs /\ dist_list (after ws hs) = map (fun a => ssub a (sdiv (sum_list (dist_list ws)) (of_int n))) (dist_list ws).
Proof.
  intros Hs N V. destruct (par_sub_avg_ok R red n ws Hs N V) as (hs & E & L & P). exists hs. split; [exact E|].
  apply (after_map ws hs (fun a => ssub a (sdiv (sum_list (dist_list ws)) (of_int n)))); [exact V|]. revert P. generalize (sdiv (sum_list (dist_list ws)) (of_int n)). clear - L. intros m P. revert hs L P.
  induction ws as [|[h x] ws IH]; intros [|h' hs] L P; [constructor| | |constructor].
  - exfalso. rewrite zlen_cons in L. change (zlen (@nil (heap S * view))) with 0 in L. pose proof (zlen_nonneg hs). lia.
  - exfalso. rewrite zlen_cons in L. change (zlen (@nil (heap S))) with 0 in L. pose proof (zlen_nonneg ws). lia.
  - cbn [fst snd]. destruct (P 0 h x) as (h2 & G & W); [reflexivity|]. injection G as <-. exact W.
  - apply IH; [rewrite !zlen_cons in L; lia|]. intros r h0 x0 G. assert (Hr : 0 <= r) by (destruct (get_Ok_inv (h0, x0) _ _ _ G); lia).
    destruct (P (r + 1) h0 x0) as (h2 & G2 & W); [|exists h2; split; [|exact W]].
    + unfold get in *. destruct (Z.ltb_spec r 0); [lia|]. destruct (Z.ltb_spec (r + 1) 0); [lia|]. replace (Z.to_nat (r + 1)) with (Datatypes.S (Z.to_nat r)) by lia. exact G.
    + unfold get in *. destruct (Z.ltb_spec r 0); [lia|]. destruct (Z.ltb_spec (r + 1) 0); [lia|]. replace (Z.to_nat (r + 1)) with (Datatypes.S (Z.to_nat r)) in G2 by lia. exact G2.
Qed.

End ParVecMore.
