(** Proofs about the functions that return a new object. *)

From Coq Require Import ZArith List Bool Lia Ring.
From Verif Require Import Base Scalar Spec Dense DenseFacts DenseProofs Sparse SparseMore LoopFacts SumFacts Vec VecSpec VecState VecMore Block BlockSpec
  Solver SolverSpec SolverProofs SolverMore SolverEnergy KrylovFacts SolverLinks SolverReuse PowerProofs Returns ReturnsSpec.
Import ListNotations.
Open Scope Z_scope.

Section ReturnsVec.
Context {S : scalar}.
Notation T := (car S).
Variable grow : Z -> Z -> Z.
Notation returns_new := (returns_new grow).

Lemma upd_last {A} (l : list A) a b : upd (l ++ [a]) (Z.to_nat (zlen l)) b = l ++ [b].
Proof. unfold zlen. rewrite Nat2Z.id. induction l as [|c l IH]; [reflexivity|]. cbn [app length upd]. now rewrite IH. Qed.

Lemma zn_last {A} (d : A) (l : list A) a : zn d (l ++ [a]) (zlen l) = a.
Proof. unfold zn, zlen. rewrite Nat2Z.id, app_nth2, Nat.sub_diag by lia. reflexivity. Qed.

Lemma zn_before {A} (d : A) (l : list A) a x : 0 <= x < zlen l -> zn d (l ++ [a]) x = zn d l x.
Proof. intros H. unfold zn, zlen in *. apply app_nth1. lia. Qed.

Lemma zlen_values (st : vstate S) : zlen (values st) = zlen (st_vars st).
Proof. unfold values. apply zlen_map. Qed.

(** the copy and the number of the parameter *)
Lemma copy_step (st : vstate S) x : reached grow st -> 0 <= x < zlen (values st) ->
  exists st1, st_copy grow st x = Ok st1 /\ reached grow st1 /\ values st1 = values st ++ [zn [] (values st) x] /\ param st1 = zlen (values st).
Proof.
  intros R Hx. destruct (reached_step grow st [PCopy x] (values st ++ [zn [] (values st) x]) R) as (st1 & E & R1 & V1).
  - cbn. unfold lvar. destruct (Z.leb_spec 0 x), (Z.ltb_spec x (zlen (values st))); try lia. reflexivity.
  - unfold run_vops in E. cbn [foldM run_vop] in E. destruct (st_copy grow st x) as [s|e]; [|discriminate]. cbn [bind] in E. injection E as ->.
    exists st1. split; [reflexivity|]. split; [exact R1|]. split; [exact V1|]. unfold param. rewrite <- zlen_values, V1, zlen_app, zlen_cons, zlen_nil. lia.
Qed.

Lemma move_step (st : vstate S) (vs : list (list T)) l : reached grow st -> values st = vs ++ [l] ->
  exists st', st_move st (zlen vs) = Ok st' /\ reached grow st' /\ values st' = vs ++ [[]; l].
Proof.
  intros R V. pose proof (zlen_nonneg vs) as H0. destruct (reached_step grow st [PMove (zlen vs)] (vs ++ [[]; l]) R) as (st' & E & R1 & V1).
  - rewrite V. cbn. unfold lvar. rewrite zlen_app, zlen_cons, zlen_nil. destruct (Z.leb_spec 0 (zlen vs)), (Z.ltb_spec (zlen vs) (zlen vs + (0 + 1))); try lia. cbn [andb].
    rewrite zn_last. unfold lset. rewrite upd_last, <- app_assoc. reflexivity.
  - unfold run_vops in E. cbn [foldM run_vop] in E. destruct (st_move st (zlen vs)) as [s|e]; [|discriminate]. cbn [bind] in E. injection E as ->. eauto.
Qed.

Lemma entrywise_zn op (l m : list T) : zlen l = zlen m ->
  entrywise op l m = map (fun i => op (zn s0 l i) (zn s0 m i)) (zrange 0 (zlen l)).
Proof.
  unfold entrywise. revert m. induction l as [|a l IH]; intros [|b m] H; rewrite ?zlen_cons, ?zlen_nil in H; try (pose proof (zlen_nonneg m); lia); try (pose proof (zlen_nonneg l); lia).
  - reflexivity.
  - cbn [combine map fst snd]. rewrite IH by lia. rewrite zlen_cons. pose proof (zlen_nonneg l). rewrite (zrange_cons 0 (zlen l + 1)) by lia.
    cbn [map]. f_equal. replace (zrange (0 + 1) (zlen l + 1)) with (map (fun i => i + 1) (zrange 0 (zlen l))).
    + rewrite map_map. apply map_ext_in. intros i Hi. apply In_zrange in Hi. rewrite !zn_cons_pos by lia. f_equal; f_equal; lia.
    + apply (list_ext 0); rewrite zlen_map, !zlen_zrange by lia; [lia|]. intros i Hi. rewrite zn_map_zrange by lia. rewrite zn_zrange by lia. lia.
Qed.

Lemma map_zn (f : T -> T) (l : list T) : map f l = map (fun i => f (zn s0 l i)) (zrange 0 (zlen l)).
Proof. rewrite <- (map_map (zn s0 l) f). f_equal. symmetry. apply map_zn_zrange. Qed.

Lemma lput_last (vs : list (list T)) (l : list T) (g : Z -> T) :
  lput (vs ++ [l]) (zlen vs) 0 (zlen l) g = vs ++ [map g (zrange 0 (zlen l))].
Proof.
  unfold lput. rewrite zn_last, upd_last. f_equal. f_equal. apply map_ext_in. intros i Hi. apply In_zrange in Hi.
  destruct (Z.leb_spec 0 i), (Z.ltb_spec i (0 + zlen l)); try lia. cbn [andb]. f_equal. lia.
Qed.

Lemma lref_last (vs : list (list T)) (l : list T) : lref (vs ++ [l]) (RVar (zlen vs)) = Some (zlen vs, 0, zlen l).
Proof.
  unfold lref. pose proof (zlen_nonneg vs). rewrite zlen_app, zlen_cons, zlen_nil.
  destruct (Z.leb_spec 0 (zlen vs)), (Z.ltb_spec (zlen vs) (zlen vs + (0 + 1))); try lia. cbn [andb]. now rewrite zn_last.
Qed.

Lemma lref_old (vs : list (list T)) (l : list T) y : 0 <= y < zlen vs -> lref (vs ++ [l]) (RVar y) = Some (y, 0, zlen (zn [] vs y)).
Proof.
  intros H. unfold lref. rewrite zlen_app, zlen_cons, zlen_nil.
  destruct (Z.leb_spec 0 y), (Z.ltb_spec y (zlen vs + (0 + 1))); try lia. cbn [andb]. now rewrite zn_before.
Qed.

Lemma binary_ok (op : T -> T -> T) (st : vstate S) x y : reached grow st -> 0 <= x < zlen (values st) -> 0 <= y < zlen (values st) ->
  zlen (zn [] (values st) x) = zlen (zn [] (values st) y) ->
  returns_new st (st <- st_copy grow st x ;; let p := param st in st <- st_on2 (v_zip op) st (RVar p) (RVar y) ;; st_move st p)
    (entrywise op (zn [] (values st) x) (zn [] (values st) y)).
Proof.
  intros R Hx Hy Hl. destruct (copy_step st x R Hx) as (st1 & E1 & R1 & V1 & P1). unfold ReturnsSpec.returns_new. rewrite E1. cbn [bind]. cbn zeta. rewrite P1.
  destruct (reached_step grow st1 [PZip op (RVar (zlen (values st))) (RVar y)]
    (values st ++ [entrywise op (zn [] (values st) x) (zn [] (values st) y)]) R1) as (st2 & E2 & R2 & V2).
  - rewrite V1. cbn [spec_vops spec_vop]. rewrite lref_last, lref_old by exact Hy. rewrite Hl, Z.eqb_refl. unfold lbehind.
    rewrite Z.ltb_irrefl, andb_false_r. cbn [andb negb]. rewrite <- Hl, lput_last, (entrywise_zn op) by exact Hl. f_equal. f_equal. f_equal.
    apply map_ext_in. intros i Hi. rewrite zn_last, zn_before by exact Hy. now rewrite !Z.add_0_l.
  - unfold run_vops in E2. cbn [foldM run_vop] in E2. destruct (st_on2 (v_zip op) st1 _ _) as [s|e]; [|discriminate]. cbn [bind] in E2 |- *. injection E2 as ->.
    exact (move_step st2 (values st) _ R2 V2).
Qed.

Lemma unary_ok (f : T -> T) (st : vstate S) x : reached grow st -> 0 <= x < zlen (values st) ->
  returns_new st (st <- st_copy grow st x ;; let p := param st in st <- st_on1 (v_map f) st (RVar p) ;; st_move st p) (map f (zn [] (values st) x)).
Proof.
  intros R Hx. destruct (copy_step st x R Hx) as (st1 & E1 & R1 & V1 & P1). unfold ReturnsSpec.returns_new. rewrite E1. cbn [bind]. cbn zeta. rewrite P1.
  destruct (reached_step grow st1 [PMap f (RVar (zlen (values st)))] (values st ++ [map f (zn [] (values st) x)]) R1) as (st2 & E2 & R2 & V2).
  - rewrite V1. cbn [spec_vops spec_vop]. rewrite lref_last, lput_last, (map_zn f). f_equal. f_equal. f_equal.
    apply map_ext_in. intros i Hi. now rewrite zn_last, Z.add_0_l.
  - unfold run_vops in E2. cbn [foldM run_vop] in E2. destruct (st_on1 (v_map f) st1 _) as [s|e]; [|discriminate]. cbn [bind] in E2 |- *. injection E2 as ->.
    exact (move_step st2 (values st) _ R2 V2).
Qed.

(** the views the parameter and the other argument are converted to *)
Lemma view_length (st : vstate S) y : reached grow st -> 0 <= y < zlen (values st) ->
  exists v, v_of st (RVar y) = Ok v /\ v_len v = zlen (zn [] (values st) y).
Proof.
  intros R Hy. pose proof (reached_good grow st R) as G. destruct st as [h vs]. unfold good in G. cbn [st_heap st_vars] in G.
  pose proof (values_vals (VState h vs) G) as Ev. cbn [st_heap st_vars] in Ev. rewrite Ev in Hy |- *.
  assert (E : lref (vals h vs) (RVar y) = Some (y, 0, zlen (zn [] (vals h vs) y))).
  { unfold lref. destruct (Z.leb_spec 0 y), (Z.ltb_spec y (zlen (vals h vs))); try lia. reflexivity. }
  destruct (v_of_ok h vs (RVar y) _ _ _ G E) as (_ & _ & _ & _ & K). eexists. split; [exact K|]. reflexivity.
Qed.

Lemma binary_refused (op : T -> T -> T) (st : vstate S) x y : reached grow st -> 0 <= x < zlen (values st) -> 0 <= y < zlen (values st) ->
  zlen (zn [] (values st) x) <> zlen (zn [] (values st) y) ->
  (st <- st_copy grow st x ;; let p := param st in st <- st_on2 (v_zip op) st (RVar p) (RVar y) ;; st_move st p) = Fail FAssert.
Proof.
  intros R Hx Hy Hl. destruct (copy_step st x R Hx) as (st1 & E1 & R1 & V1 & P1). rewrite E1. cbn [bind]. cbn zeta. rewrite P1. pose proof (zlen_nonneg (values st)).
  destruct (view_length st1 (zlen (values st)) R1) as (v & Ev & Lv); [rewrite V1, zlen_app, zlen_cons, zlen_nil; lia|].
  destruct (view_length st1 y R1) as (v' & Ev' & Lv'); [rewrite V1, zlen_app, zlen_cons, zlen_nil; lia|].
  unfold st_on2. rewrite Ev. cbn [bind]. rewrite Ev'. cbn [bind]. unfold v_zip. rewrite V1, zn_last in Lv. rewrite V1, zn_before in Lv' by exact Hy.
  destruct (Z.eqb_spec (v_len v) (v_len v')) as [K|]; [rewrite Lv, Lv' in K; contradiction|]. reflexivity.
Qed.

Lemma over_refused (st : vstate S) x t : reached grow st -> 0 <= x < zlen (values st) -> seqb t s0 = true -> st_over grow st x t = Fail FAssert.
Proof.
  intros R Hx Ht. unfold st_over. destruct (copy_step st x R Hx) as (st1 & E1 & R1 & V1 & P1). rewrite E1. cbn [bind]. cbn zeta. rewrite P1. pose proof (zlen_nonneg (values st)).
  destruct (view_length st1 (zlen (values st)) R1) as (v & Ev & Lv); [rewrite V1, zlen_app, zlen_cons, zlen_nil; lia|].
  unfold st_on1. rewrite Ev. cbn [bind]. unfold v_div_scalar. now rewrite Ht.
Qed.

Lemma over_ok (st : vstate S) x t : reached grow st -> 0 <= x < zlen (values st) -> seqb t s0 = false ->
  returns_new st (st_over grow st x t) (map (fun a => sdiv a t) (zn [] (values st) x)).
Proof.
  intros R Hx Ht. replace (st_over grow st x t) with
    (st <- st_copy grow st x ;; let p := param st in st <- st_on1 (v_map (fun a => sdiv a t)) st (RVar p) ;; st_move st p); [now apply unary_ok|].
  unfold st_over, st_on1, v_div_scalar. now rewrite Ht.
Qed.

Lemma vec_operators (st : vstate S) x y t : reached grow st -> 0 <= x < zlen (values st) -> 0 <= y < zlen (values st) ->
  let l := zn [] (values st) x in let m := zn [] (values st) y in
  (zlen l = zlen m -> returns_new st (st_plus grow st x y) (entrywise sadd l m) /\ returns_new st (st_minus grow st x y) (entrywise ssub l m)) /\
  returns_new st (st_times grow st x t) (map (fun a => smul a t) l) /\
  (seqb t s0 = false -> returns_new st (st_over grow st x t) (map (fun a => sdiv a t) l)) /\
  returns_new st (st_under grow st t x) (map (fun a => sdiv t a) l).
Proof.
  intros R Hx Hy l m. split; [intros Hl; split; now apply binary_ok|]. split; [now apply (unary_ok (fun a => smul a t))|].
  split; [intros Ht; now apply over_ok|]. now apply (unary_ok (fun a => sdiv t a)).
Qed.

Lemma vec_operators_refused (st : vstate S) x y t : reached grow st -> 0 <= x < zlen (values st) -> 0 <= y < zlen (values st) ->
  (zlen (zn [] (values st) x) <> zlen (zn [] (values st) y) -> st_plus grow st x y = Fail FAssert /\ st_minus grow st x y = Fail FAssert) /\
  (seqb t s0 = true -> st_over grow st x t = Fail FAssert).
Proof. intros R Hx Hy. split; [intros Hl; split; now apply binary_refused|now apply over_refused]. Qed.

End ReturnsVec.

(* ---------------------------------------------------------------- matrices *)

Section ReturnsMat.
Context {S : scalar}.
Notation T := (car S).

Lemma mult_dense_new (R : ring_laws S) (A : csr S) (X : dense S) : csr_valid A -> dense_ok X ->
  (d_rows X = c_cols A -> d_gives (sp_mult_dense_new A X) (c_rows A) (d_cols X) (mat_mul (csr_mat A) (dense_mat X) (c_cols A))) /\
  (d_rows X = c_rows A -> d_gives (sp_multAT_dense_new A X) (c_cols A) (d_cols X) (mat_mul (mat_T (csr_mat A)) (dense_mat X) (c_rows A))) /\
  (d_rows X = c_cols A -> d_gives (sp_multCT_dense_new A X) (d_cols X) (c_rows A) (mat_T (mat_mul (csr_mat A) (dense_mat X) (c_cols A)))).
Proof.
  intros V HX. pose proof (cv_rows V) as Vr. pose proof (cv_cols V) as Vc. pose proof (proj1 HX) as X1. pose proof (proj1 (proj2 HX)) as X2. unfold d_gives, sp_mult_dense_new, sp_multAT_dense_new, sp_multCT_dense_new.
  split; [|split]; intros Hr.
  - destruct (d_zeros_ok (S := S) (c_rows A) (d_cols X) Vr X2) as (O & -> & _). cbn [bind].
    destruct (sp_mult_dense_spec R A X O V HX Hr) as (D & E & HD & Er & Ec & Hv). exists D. auto.
  - destruct (d_zeros_ok (S := S) (c_cols A) (d_cols X) Vc X2) as (O & -> & _). cbn [bind].
    destruct (sp_multAT_dense_spec R A X O V HX Hr) as (D & E & HD & Er & Ec & Hv). exists D. auto.
  - destruct (d_zeros_ok (S := S) (d_cols X) (c_rows A) X2 Vr) as (O & -> & _). cbn [bind].
    destruct (sp_multCT_dense_spec R A X O V HX Hr) as (D & E & HD & Er & Ec & Hv). exists D.
    split; [exact E|]. split; [exact HD|]. split; [exact Er|]. split; [exact Ec|]. intros i j Hi Hj. unfold mat_T. now apply Hv.
Qed.

Lemma transpose_dense_new (R : ring_laws S) (A : csr S) : csr_valid A -> no_dup_coords (entries A) ->
  d_gives (sp_transpose_dense_new A) (c_cols A) (c_rows A) (mat_T (csr_mat A)).
Proof.
  intros V ND. pose proof (cv_rows V) as Vr. pose proof (cv_cols V) as Vc. unfold d_gives, sp_transpose_dense_new.
  destruct (d_zeros_ok (S := S) (c_cols A) (c_rows A) Vc Vr) as (O & -> & _). cbn [bind].
  destruct (sp_transpose_dense_into_spec R A O V ND) as (D & E & HD & Er & Ec & Hv). exists D.
  split; [exact E|]. split; [exact HD|]. split; [exact Er|]. split; [exact Ec|]. intros i j Hi Hj. unfold mat_T. now apply Hv.
Qed.

Lemma col_row_new (D : dense S) k : dense_ok D ->
  (0 <= k < d_cols D -> d_get_col_new D k = Ok (map (fun i => dense_mat D i k) (zrange 0 (d_rows D)))) /\
  (~ 0 <= k < d_cols D -> d_get_col_new D k = Fail FAssert) /\
  (0 <= k < d_rows D -> d_get_row_new D k = Ok (map (fun j => dense_mat D k j) (zrange 0 (d_cols D)))) /\
  (~ 0 <= k < d_rows D -> d_get_row_new D k = Fail FAssert).
Proof.
  intros HD. pose proof (proj1 HD) as X1. pose proof (proj1 (proj2 HD)) as X2. unfold d_get_col_new, d_get_row_new. rewrite !vec_ok by assumption. cbn [bind].
  split; [|split; [|split]]; intros Hk.
  - apply d_get_col_exact; auto. rewrite zlen_repeat; lia.
  - unfold d_get_col. destruct (Z.leb_spec 0 k), (Z.ltb_spec k (d_cols D)); try reflexivity. lia.
  - apply d_get_row_exact; auto. rewrite zlen_repeat; lia.
  - unfold d_get_row. destruct (Z.leb_spec 0 k), (Z.ltb_spec k (d_rows D)); try reflexivity. lia.
Qed.

End ReturnsMat.

(* ---------------------------------------------------------------- solvers *)

Section ReturnsSolve.
Context {S : scalar} (F : field_laws S) (E : eqb_laws S) (O : order_laws S).
Notation T := (car S).
Let R : ring_laws S := field_ring S F.

Lemma random_start_ok (gen : Z -> T) n : 0 <= n -> random_start gen n = Ok (listed gen n).
Proof.
  intros Hn. unfold random_start. rewrite vec_ok by exact Hn. cbn [bind]. unfold listed. apply (for_fill s0 gen (fun i _ => Ok (gen i)) n (repeat s0 (Z.to_nat n))); [rewrite zlen_repeat; lia|reflexivity].
Qed.

Lemma zlen_listed (gen : Z -> T) n : 0 <= n -> zlen (listed gen n) = n.
Proof. intros Hn. unfold listed. rewrite zlen_map, zlen_zrange by exact Hn. lia. Qed.

Lemma tolerance_pos (par : sparams S) q : slt s0 (smul (sp_abs par) (sp_abs par)) = true -> slt s0 (tolerance par q) = true.
Proof.
  intros H. unfold tolerance, larger. destruct (slt (smul (smul q (sp_rel par)) (sp_rel par)) (smul (sp_abs par) (sp_abs par))) eqn:K; [exact H|].
  destruct (slt (smul (sp_abs par) (sp_abs par)) (smul (smul q (sp_rel par)) (sp_rel par))) eqn:L; [exact (slt_trans S O _ _ _ H L)|].
  rewrite (slt_total S O _ _ K L). exact H.
Qed.

Lemma tolerance_abs (par : sparams S) q : sp_rel par = s0 -> slt s0 (smul (sp_abs par) (sp_abs par)) = true ->
  tolerance par q = smul (sp_abs par) (sp_abs par).
Proof.
  intros Hr H. unfold tolerance, larger. rewrite Hr, (smul_0_r R), H. reflexivity.
Qed.

Context {W : Type} (I : W -> Prop) (A : op S W) (n : Z) (mA : mat S) (HA : acts_as I A n mA) (Asym : mat_sym n mA).

Lemma acts_nonneg : 0 <= n.
Proof. destruct HA as (K & _ & H & _). lia. Qed.

Lemma pcg_solution_ok (M : option (op S W)) (mM : mat S) (gen : Z -> T) par w b :
  mat_pos_def n mA -> prec_applies I M n (mat_list mM n) -> mat_sym n mM -> I w -> zlen b = n ->
  slt s0 (smul (sp_abs par) (sp_abs par)) = true -> slt (sp_floor par) s0 = true -> n < sp_max par ->
  let q x := inner n (vec_of (mat_list mM n (residual mA n b x))) (vec_of (residual mA n b x)) in
  exists x, pcg_solution gen A M l_inner par w b = Ok x /\ zlen x = n /\
    slt (q x) (tolerance par (q (listed gen n))) = true /\
    (sp_rel par = s0 -> slt (q x) (smul (sp_abs par) (sp_abs par)) = true).
Proof.
  intros Ap HM Ms Hw Hb Ht Hf Hm q. pose proof acts_nonneg as Hn. unfold pcg_solution, pcg_run. destruct HA as (E1 & E2 & HAp) eqn:EH. clear EH. rewrite E1, random_start_ok by exact Hn. cbn [bind].
  assert (Eu : exists u, pcg_new A M par = Ok u).
  { unfold pcg_new, solver_checks. rewrite E1, E2, Z.eqb_refl. replace (0 <=? sp_max par) with true by lia. cbn [assert_ bind].
    destruct M as [m|]; cbn [bind]; [destruct HM as (M1 & M2 & _); rewrite M1, M2, Z.eqb_refl; cbn [assert_ bind]|]; rewrite vec_ok by exact Hn; cbn [bind]; eauto. }
  destruct Eu as (u & Eu). rewrite Eu. cbn [bind].
  destruct (pcg_converges_within F E O I A n mA HA Asym M mM par w u b (listed gen n) Ap HM Ms Hw Hb (zlen_listed gen n Hn) (tolerance_pos par _ Ht) Hf Hm)
    as (w' & u' & x' & k & Ek & Hk & Hx). rewrite Ek. cbn [bind]. exists x'. split; [reflexivity|].
  destruct (pcg_residual_end I A M l_inner n mA (mat_list mM n) _ HA HM (l_inner_gives R n) R par w u b _ w' u' x' k Hw Hb (zlen_listed gen n Hn) Ek) as (Hl & _).
  split; [exact Hl|]. split; [exact Hx|]. intros Hr. unfold q. now rewrite (tolerance_abs par _ Hr Ht) in Hx.
Qed.

Context (OS : sum_order_laws S) (OP : prod_order_laws S) (AL : abs_laws S) (AQ : abs_square_law S).
Context (root : T -> T) (Anons : mat_nonsingular n mA) (Hroot : root_laws root).

Lemma start_cases b x : {forall i, 0 <= i < n -> (vec_of b i - mat_vec mA n (vec_of x) i)%S = s0} +
  {exists i, 0 <= i < n /\ vec_of (residual mA n b x) i <> s0}.
Proof.
  pose proof acts_nonneg as Hn. destruct (forallb (fun i => seqb (vec_of b i - mat_vec mA n (vec_of x) i)%S s0) (zrange 0 n)) eqn:K.
  - left. intros i Hi. rewrite forallb_forall in K. apply E, K, In_zrange. exact Hi.
  - right. assert (Hx : exists i, In i (zrange 0 n) /\ seqb (vec_of b i - mat_vec mA n (vec_of x) i)%S s0 = false).
    { clear - K. induction (zrange 0 n) as [|i l IH]; [discriminate|]. cbn [forallb] in K. destruct (seqb (vec_of b i - mat_vec mA n (vec_of x) i)%S s0) eqn:L.
      - destruct (IH K) as (j & Hj & Ej). exists j. split; [now right|exact Ej].
      - exists i. split; [now left|exact L]. }
    destruct Hx as (i & Hi & Ki). apply In_zrange in Hi. exists i. split; [exact Hi|]. unfold residual, vec_of. rewrite zn_map_zrange by lia. intros Hz.
    apply E in Hz. unfold vec_of in Ki. congruence.
Qed.

Lemma start_vec gen i : 0 <= i < n -> mat_vec mA n gen i = mat_vec mA n (vec_of (listed gen n)) i.
Proof.
  intros Hi. unfold mat_vec. apply sum_range_ext. intros j Hj. f_equal. unfold vec_of, listed. rewrite zn_map_zrange by lia. reflexivity.
Qed.

Lemma zero_dot r : zlen r = n -> all_zero r -> root (inner n (vec_of r) (vec_of r)) = s0.
Proof.
  intros Hl Hz. apply (root_zero F E); [exact Hroot|apply (inner_nonneg F O OS OP)|]. unfold inner. apply (sum_map_0 R). intros i Hi. apply In_zrange in Hi. rewrite (Hz i) by lia. apply (smul_0_l R).
Qed.

Lemma zero_dotM (mM : mat S) r : zlen r = n -> all_zero r -> root (inner n (vec_of (mat_list mM n r)) (vec_of r)) = s0.
Proof.
  intros Hl Hz. assert (K : inner n (vec_of (mat_list mM n r)) (vec_of r) = s0).
  { unfold inner. apply (sum_map_0 R). intros i Hi. apply In_zrange in Hi. rewrite (Hz i) by lia. apply (smul_0_r R). }
  rewrite K. apply (root_zero F E); [exact Hroot| |reflexivity]. apply (slt_irrefl S O).
Qed.

Lemma minres_solution_ok (gen : Z -> T) par w b : I w -> zlen b = n ->
  slt s0 (smul (sp_abs par) (sp_abs par)) = true -> n <= sp_max par -> 1 <= sp_max par ->
  ((forall i, 0 <= i < n -> (vec_of b i - mat_vec mA n gen i)%S = s0) /\ minres_solution gen root A l_inner par w b = Fail FAssert) \/
  exists x e0 e, minres_solution gen root A l_inner par w b = Ok x /\ zlen x = n /\
    norm_of n id_mat (residual mA n b (listed gen n)) e0 /\ norm_of n id_mat (residual mA n b x) e /\
    slt e (tolerance par e0) = true /\ (sp_rel par = s0 -> slt e (smul (sp_abs par) (sp_abs par)) = true).
Proof.
  intros Hw Hb Ht Hm H1. pose proof acts_nonneg as Hn. pose proof (proj1 HA) as E1. pose proof (proj1 (proj2 HA)) as E2.
  unfold minres_solution. rewrite E1, random_start_ok by exact Hn. cbn [bind].
  destruct (start_cases b (listed gen n)) as [K|K].
  - left. split.
    + intros i Hi. rewrite <- (K i Hi). now rewrite (start_vec gen i Hi).
    + rewrite (minres_run_exact I A l_inner n mA _ root par w b (listed gen n) HA (l_inner_gives R n) Hw Hb (zlen_listed gen n Hn) K zero_dot (proj2 (E s0 s0) eq_refl) H1). reflexivity.
  - right. unfold minres_run.
    assert (En : exists u, minres_new A None par = Ok u).
    { unfold minres_new, solver_checks, assert_. replace (0 <=? sp_max par) with true by lia. cbn [bind]. rewrite E1, E2, Z.eqb_refl. cbn [bind]. rewrite vec_ok by lia. cbn [bind]. eauto. }
    destruct En as (u & En). rewrite En. cbn [bind].
    assert (Hst : minres_state I root A l_inner par n w u) by (exists [], w, u; repeat split; auto).
    destruct (minres_terminates F E O OS OP AL I A n mA HA Asym root Anons Hroot par w u b (listed gen n) Hst Hb (zlen_listed gen n Hn) Hm K (fun e _ => tolerance_pos par e Ht))
      as (w' & u' & l' & x' & k & Ek & Hk). rewrite Ek. cbn [bind].
    destruct (minres_residual F E O OS OP AL AQ I A n mA HA Asym root Anons Hroot par w u b (listed gen n) w' u' l' x' k Hst Hb (zlen_listed gen n Hn) Ek)
      as (Hl & e0 & e & N0 & N1 & _ & _ & Hs). specialize (Hs ltac:(lia)).
    exists x', e0, e. split; [reflexivity|]. split; [exact Hl|]. split; [exact N0|]. split; [exact N1|]. split; [exact Hs|]. intros Hr. now rewrite (tolerance_abs par e0 Hr Ht) in Hs.
Qed.

Lemma pminres_solution_ok (M : op S W) (mM : mat S) (gen : Z -> T) par w b : acts_as I M n mM -> mat_sym n mM -> mat_pos_def n mM -> I w -> zlen b = n ->
  slt s0 (smul (sp_abs par) (sp_abs par)) = true -> n <= sp_max par -> 1 <= sp_max par ->
  ((forall i, 0 <= i < n -> (vec_of b i - mat_vec mA n gen i)%S = s0) /\ pminres_solution gen root A M l_inner par w b = Fail FAssert) \/
  exists x e0 e, pminres_solution gen root A M l_inner par w b = Ok x /\ zlen x = n /\
    norm_of n mM (residual mA n b (listed gen n)) e0 /\ norm_of n mM (residual mA n b x) e /\
    slt e (tolerance par e0) = true /\ (sp_rel par = s0 -> slt e (smul (sp_abs par) (sp_abs par)) = true).
Proof.
  intros HM Ms Mp Hw Hb Ht Hm H1. pose proof acts_nonneg as Hn. pose proof (proj1 HA) as E1. pose proof (proj1 (proj2 HA)) as E2.
  unfold pminres_solution. rewrite E1, random_start_ok by exact Hn. cbn [bind]. pose proof HM as (M1 & M2 & M3).
  destruct (start_cases b (listed gen n)) as [K|K].
  - left. split.
    + intros i Hi. rewrite <- (K i Hi). now rewrite (start_vec gen i Hi).
    + rewrite (pminres_run_exact I A M l_inner n mA (mat_list mM n) _ root par w b (listed gen n) HA M1 M2 M3 (l_inner_gives R n) Hw Hb (zlen_listed gen n Hn) K
        (zero_dotM mM) (proj2 (E s0 s0) eq_refl) H1). reflexivity.
  - right. unfold pminres_run.
    assert (En : exists u, minres_new A (Some M) par = Ok u).
    { unfold minres_new, solver_checks, assert_. replace (0 <=? sp_max par) with true by lia. cbn [bind]. rewrite E1, E2, Z.eqb_refl. cbn [bind].
      rewrite M1, M2, Z.eqb_refl. cbn [bind]. rewrite vec_ok by lia. cbn [bind]. eauto. }
    destruct En as (u & En). rewrite En. cbn [bind].
    assert (Hst : pminres_state I root A M l_inner par n w u) by (exists [], w, u; repeat split; auto).
    destruct (pminres_terminates F E O OS OP AL I A n mA HA Asym root Anons Hroot M mM par w u b (listed gen n) HM Ms Mp Hst Hb (zlen_listed gen n Hn) Hm K (fun e _ => tolerance_pos par e Ht))
      as (w' & u' & l' & x' & k & Ek & Hk). rewrite Ek. cbn [bind].
    destruct (pminres_residual F E O OS OP AL AQ I A n mA HA Asym root Anons Hroot M mM par w u b (listed gen n) w' u' l' x' k HM Ms Mp Hst Hb (zlen_listed gen n Hn) Ek)
      as (Hl & e0 & e & N0 & N1 & _ & _ & Hs). specialize (Hs ltac:(lia)).
    exists x', e0, e. split; [reflexivity|]. split; [exact Hl|]. split; [exact N0|]. split; [exact N1|]. split; [exact Hs|]. intros Hr. now rewrite (tolerance_abs par e0 Hr Ht) in Hs.
Qed.

End ReturnsSolve.
