(** Algebra of finite sums and of [mat_of], for exact arithmetic ([ring_laws S]). *)

From Coq Require Import ZArith List Lia Bool Permutation Ring.
From Verif Require Import Base Scalar Spec.
Import ListNotations.
Open Scope Z_scope.

Section Sums.
Context {S : scalar}.
Notation T := (car S).
Hypothesis R : ring_laws S.
Let Rth : ring_theory (@s0 S) s1 sadd smul ssub sopp (@eq (car S)) := R.
Add Ring Sring : Rth.
Local Open Scope S_scope.

Lemma sadd_0_l (a : T) : s0 + a = a. Proof. ring. Qed.
Lemma sadd_0_r (a : T) : a + s0 = a. Proof. ring. Qed.
Lemma sadd_comm (a b : T) : a + b = b + a. Proof. ring. Qed.
Lemma sadd_assoc (a b c : T) : a + (b + c) = a + b + c. Proof. ring. Qed.
Lemma smul_0_l (a : T) : s0 * a = s0. Proof. ring. Qed.
Lemma smul_0_r (a : T) : a * s0 = s0. Proof. ring. Qed.
Lemma smul_1_l (a : T) : s1 * a = a. Proof. ring. Qed.
Lemma smul_1_r (a : T) : a * s1 = a. Proof. ring. Qed.
Lemma smul_comm (a b : T) : a * b = b * a. Proof. ring. Qed.
Lemma smul_assoc (a b c : T) : a * (b * c) = a * b * c. Proof. ring. Qed.
Lemma smul_add_l (a b c : T) : (a + b) * c = a * c + b * c. Proof. ring. Qed.
Lemma smul_add_r (a b c : T) : a * (b + c) = a * b + a * c. Proof. ring. Qed.
Lemma ssub_def (a b : T) : a - b = a + (- s1) * b. Proof. ring. Qed.

(** ** Lists *)

Lemma sum_nil : sum_list (@nil T) = s0. Proof. reflexivity. Qed.
Lemma sum_cons (a : T) l : sum_list (a :: l) = a + sum_list l. Proof. reflexivity. Qed.
#[local] Opaque sum_list.

Lemma sum_list_app (l1 l2 : list T) : sum_list (l1 ++ l2) = sum_list l1 + sum_list l2.
Proof. induction l1; cbn; rewrite ?sum_nil, ?sum_cons; [ring|]. rewrite IHl1. ring. Qed.

Lemma sum_list_perm (l1 l2 : list T) : Permutation l1 l2 -> sum_list l1 = sum_list l2.
Proof.
  induction 1; rewrite ?sum_cons; auto.
  - congruence.
  - ring.
  - congruence.
Qed.

Lemma fold_left_sum (l : list T) a : fold_left sadd l a = a + sum_list l.
Proof. revert a; induction l; intros b; cbn; rewrite ?sum_nil, ?sum_cons; [ring|]. rewrite IHl. ring. Qed.

Lemma fold_left_sum_map {X} (f : X -> T) (l : list X) a :
  fold_left (fun s x => s + f x) l a = a + sum_list (map f l).
Proof. revert a; induction l; intros b; cbn; rewrite ?sum_nil, ?sum_cons; [ring|]. rewrite IHl. ring. Qed.

Lemma sum_map_ext {X} (f g : X -> T) l :
  (forall x, In x l -> f x = g x) -> sum_list (map f l) = sum_list (map g l).
Proof. intros H. f_equal. apply map_ext_in. exact H. Qed.

Lemma sum_map_0 {X} (f : X -> T) l : (forall x, In x l -> f x = s0) -> sum_list (map f l) = s0.
Proof.
  induction l; intros H; cbn; [reflexivity|].
  rewrite sum_cons, H by (left; reflexivity). rewrite IHl; [ring|].
  intros; apply H; right; assumption.
Qed.

Lemma sum_map_add {X} (f g : X -> T) l :
  sum_list (map (fun x => f x + g x) l) = sum_list (map f l) + sum_list (map g l).
Proof. induction l; cbn; rewrite ?sum_nil, ?sum_cons; [ring|]. rewrite IHl. ring. Qed.

Lemma sum_map_scale {X} (f : X -> T) c l :
  sum_list (map (fun x => c * f x) l) = c * sum_list (map f l).
Proof. induction l; cbn; rewrite ?sum_nil, ?sum_cons; [ring|]. rewrite IHl. ring. Qed.

Lemma sum_map_scale_r {X} (f : X -> T) c l :
  sum_list (map (fun x => f x * c) l) = sum_list (map f l) * c.
Proof. induction l; cbn; rewrite ?sum_nil, ?sum_cons; [ring|]. rewrite IHl. ring. Qed.

Lemma sum_map_swap {X Y} (f : X -> Y -> T) l1 l2 :
  sum_list (map (fun x => sum_list (map (f x) l2)) l1)
  = sum_list (map (fun y => sum_list (map (fun x => f x y) l1)) l2).
Proof.
  induction l1; cbn.
  - symmetry. apply sum_map_0. reflexivity.
  - rewrite sum_cons, IHl1. rewrite <- sum_map_add. apply sum_map_ext. intros; now rewrite sum_cons.
Qed.

Lemma sum_flat_map {X Y} (f : Y -> T) (h : X -> list Y) l :
  sum_list (map f (flat_map h l)) = sum_list (map (fun x => sum_list (map f (h x))) l).
Proof.
  induction l; cbn; [reflexivity|].
  rewrite map_app, sum_list_app, IHl, sum_cons. reflexivity.
Qed.

(** Filtering is the same as replacing the dropped summands by 0. *)
Lemma sum_filter {X} (p : X -> bool) (f : X -> T) l :
  sum_list (map f (filter p l)) = sum_list (map (fun x => if p x then f x else s0) l).
Proof.
  induction l; cbn; [reflexivity|].
  destruct (p a); cbn; rewrite ?sum_cons, IHl; ring.
Qed.

Lemma sum_map_perm {X} (f : X -> T) l1 l2 :
  Permutation l1 l2 -> sum_list (map f l1) = sum_list (map f l2).
Proof. intros H. apply sum_list_perm, Permutation_map, H. Qed.

(** ** Ranges *)

Lemma sum_range_ext lo hi (f g : Z -> T) :
  (forall i, (lo <= i < hi)%Z -> f i = g i) -> sum_range lo hi f = sum_range lo hi g.
Proof. intros H. unfold sum_range. apply sum_map_ext. intros i Hi. apply H, In_zrange, Hi. Qed.

Lemma sum_range_0 lo hi (f : Z -> T) :
  (forall i, (lo <= i < hi)%Z -> f i = s0) -> sum_range lo hi f = s0.
Proof. intros H. unfold sum_range. apply sum_map_0. intros i Hi. apply H, In_zrange, Hi. Qed.

Lemma sum_range_empty lo hi (f : Z -> T) : (hi <= lo)%Z -> sum_range lo hi f = s0.
Proof. intros H. unfold sum_range. rewrite zrange_empty by exact H. reflexivity. Qed.

Lemma sum_range_split lo mid hi (f : Z -> T) :
  (lo <= mid <= hi)%Z -> sum_range lo hi f = sum_range lo mid f + sum_range mid hi f.
Proof. intros H. unfold sum_range. rewrite (zrange_app lo mid hi H), map_app. apply sum_list_app. Qed.

Lemma sum_range_last lo hi (f : Z -> T) :
  (lo <= hi)%Z -> sum_range lo (hi + 1) f = sum_range lo hi f + f hi.
Proof.
  intros H. rewrite (sum_range_split lo hi (hi + 1)) by lia. f_equal.
  unfold sum_range. rewrite zrange_cons, zrange_empty by lia. cbn. rewrite sum_cons, sum_nil. ring.
Qed.

Lemma sum_range_first lo hi (f : Z -> T) :
  (lo < hi)%Z -> sum_range lo hi f = f lo + sum_range (lo + 1) hi f.
Proof. intros H. unfold sum_range. rewrite zrange_cons by lia. reflexivity. Qed.

Lemma sum_range_add lo hi (f g : Z -> T) :
  sum_range lo hi (fun i => f i + g i) = sum_range lo hi f + sum_range lo hi g.
Proof. apply sum_map_add. Qed.

Lemma sum_range_scale lo hi c (f : Z -> T) :
  sum_range lo hi (fun i => c * f i) = c * sum_range lo hi f.
Proof. apply sum_map_scale. Qed.

Lemma sum_range_scale_r lo hi c (f : Z -> T) :
  sum_range lo hi (fun i => f i * c) = sum_range lo hi f * c.
Proof. apply sum_map_scale_r. Qed.

Lemma sum_range_swap a b c d (f : Z -> Z -> T) :
  sum_range a b (fun i => sum_range c d (f i)) = sum_range c d (fun j => sum_range a b (fun i => f i j)).
Proof. apply sum_map_swap. Qed.

Lemma sum_range_shift lo hi k (f : Z -> T) :
  sum_range (lo + k) (hi + k) f = sum_range lo hi (fun i => f (i + k)%Z).
Proof.
  unfold sum_range, zrange. replace (hi + k - (lo + k))%Z with (hi - lo)%Z by lia.
  rewrite !map_map. f_equal. apply map_ext. intros n. f_equal. lia.
Qed.

(** Only one summand is different from 0. *)
Lemma sum_range_delta lo hi j (f : Z -> T) :
  (lo <= j < hi)%Z -> sum_range lo hi (fun i => if i =? j then f i else s0) = f j.
Proof.
  intros H. rewrite (sum_range_split lo j hi) by lia. rewrite (sum_range_first j hi) by lia.
  rewrite Z.eqb_refl. rewrite !sum_range_0; [ring| |];
    intros i Hi; destruct (Z.eqb_spec i j); auto; lia.
Qed.

Lemma sum_range_delta_out lo hi j (f : Z -> T) :
  ~ (lo <= j < hi)%Z -> sum_range lo hi (fun i => if i =? j then f i else s0) = s0.
Proof.
  intros H. apply sum_range_0. intros i Hi. destruct (Z.eqb_spec i j); auto; lia.
Qed.

Lemma fold_left_range (f : Z -> T) lo hi :
  fold_left (fun s i => s + f i) (zrange lo hi) s0 = sum_range lo hi f.
Proof. rewrite fold_left_sum_map. apply sadd_0_l. Qed.

(** ** The matrix of an entry list *)

Lemma mat_of_if (l : list (entry S)) i j :
  mat_of l i j = sum_list (map (fun e => if at_pos i j e then evalue e else s0) l).
Proof. apply sum_filter. Qed.

Lemma mat_of_nil i j : mat_of (@nil (entry S)) i j = s0.
Proof. reflexivity. Qed.

Lemma mat_of_cons (e : entry S) l i j :
  mat_of (e :: l) i j = (if at_pos i j e then evalue e else s0) + mat_of l i j.
Proof. rewrite !mat_of_if. reflexivity. Qed.

Lemma mat_of_app (l1 l2 : list (entry S)) i j : mat_of (l1 ++ l2) i j = mat_of l1 i j + mat_of l2 i j.
Proof. rewrite !mat_of_if, map_app. apply sum_list_app. Qed.

Lemma mat_of_perm (l1 l2 : list (entry S)) i j :
  Permutation l1 l2 -> mat_of l1 i j = mat_of l2 i j.
Proof. intros H. rewrite !mat_of_if. apply sum_map_perm, H. Qed.

Lemma mat_of_flat_map {X} (h : X -> list (entry S)) l i j :
  mat_of (flat_map h l) i j = sum_list (map (fun x => mat_of (h x) i j) l).
Proof.
  rewrite mat_of_if, sum_flat_map. apply sum_map_ext. intros x _. now rewrite mat_of_if.
Qed.

Lemma mat_of_zero (l : list (entry S)) i j :
  (forall e, In e l -> erow e = i -> ecol e = j -> evalue e = s0) -> mat_of l i j = s0.
Proof.
  intros H. rewrite mat_of_if. apply sum_map_0. intros e He. unfold at_pos.
  destruct (Z.eqb_spec (erow e) i), (Z.eqb_spec (ecol e) j); cbn; auto.
Qed.

Lemma mat_of_out rows cols (l : list (entry S)) i j :
  in_shape rows cols l -> ~ ((0 <= i < rows)%Z /\ (0 <= j < cols)%Z) -> mat_of l i j = s0.
Proof.
  intros Hs Ho. apply mat_of_zero. intros e He <- <-.
  unfold in_shape in Hs. rewrite Forall_forall in Hs. apply Hs in He. tauto.
Qed.

(** Transposing entries transposes the matrix. *)
Definition swap_entry (e : entry S) : entry S := (ecol e, erow e, evalue e).

Lemma mat_of_swap (l : list (entry S)) i j : mat_of (map swap_entry l) i j = mat_of l j i.
Proof.
  rewrite !mat_of_if, map_map. apply sum_map_ext. intros e _. unfold at_pos, swap_entry.
  cbn. rewrite andb_comm. reflexivity.
Qed.

(** Mapping values linearly. *)
Lemma mat_of_map_value (h : Z -> Z -> T -> T) (l : list (entry S)) i j :
  (h i j s0 = s0) -> (forall a b, h i j (a + b) = h i j a + h i j b) ->
  mat_of (map (fun e => (erow e, ecol e, h (erow e) (ecol e) (evalue e))) l) i j = h i j (mat_of l i j).
Proof.
  intros H0 Ha. induction l as [|e l IH]; [rewrite !mat_of_nil; auto|].
  cbn [map]. rewrite !mat_of_cons, IH, Ha. f_equal.
  unfold at_pos. cbn. destruct (Z.eqb_spec (erow e) i), (Z.eqb_spec (ecol e) j); cbn; subst; auto.
Qed.

(** Sum over entries = sum over the matrix. *)
Lemma sum_entries_row cols (l : list (entry S)) i (x : Z -> T) :
  (forall e, In e l -> erow e = i -> (0 <= ecol e < cols)%Z) ->
  sum_list (map (fun e => if erow e =? i then evalue e * x (ecol e) else s0) l)
  = sum_range 0 cols (fun j => mat_of l i j * x j).
Proof.
  intros H. induction l as [|e l IH].
  - cbn. rewrite sum_nil. symmetry. apply sum_range_0. intros j _. rewrite mat_of_nil. ring.
  - cbn [map]. rewrite sum_cons, IH by (intros; apply H; [right|]; assumption).
    rewrite (sum_range_ext 0 cols (fun j => mat_of (e :: l) i j * x j) (fun j => (if at_pos i j e then evalue e else s0) * x j + mat_of l i j * x j)) by (intros j _; rewrite mat_of_cons; ring).
    rewrite sum_range_add. f_equal. unfold at_pos.
    destruct (Z.eqb_spec (erow e) i) as [E|E]; cbn [andb].
    + rewrite (sum_range_ext 0 cols _ (fun j => if j =? ecol e then evalue e * x j else s0)).
      * rewrite sum_range_delta; [reflexivity|]. apply H; [left; reflexivity|exact E].
      * intros j _. rewrite (Z.eqb_sym (ecol e) j). destruct (j =? ecol e); ring.
    + symmetry. apply sum_range_0. intros; ring.
Qed.

Lemma sum_entries_row_filter cols (l : list (entry S)) i (x : Z -> T) :
  (forall e, In e l -> erow e = i -> (0 <= ecol e < cols)%Z) ->
  sum_list (map (fun e => evalue e * x (ecol e)) (filter (fun e => erow e =? i) l))
  = mat_vec (mat_of l) cols x i.
Proof. intros H. rewrite sum_filter. apply sum_entries_row, H. Qed.

(** Adjointness at the level of functions. *)
Lemma inner_mat_vec_T (A : mat S) rows cols (x y : vect S) :
  inner rows (mat_vec A cols x) y = inner cols x (mat_vec (mat_T A) rows y).
Proof.
  unfold inner, mat_vec, mat_T.
  rewrite (sum_range_ext 0 rows _ (fun i => sum_range 0 cols (fun j => A i j * x j * y i))).
  2:{ intros i _. rewrite sum_range_scale_r. reflexivity. }
  rewrite sum_range_swap. apply sum_range_ext. intros j _.
  rewrite <- sum_range_scale. apply sum_range_ext. intros i _. ring.
Qed.

Lemma mat_vec_mul (A B : mat S) n m x i :
  mat_vec (mat_mul A B n) m x i = mat_vec A n (mat_vec B m x) i.
Proof.
  unfold mat_vec, mat_mul.
  rewrite (sum_range_ext 0 m _ (fun j => sum_range 0 n (fun k => A i k * B k j * x j))).
  2:{ intros j _. symmetry. apply sum_range_scale_r. }
  rewrite sum_range_swap. apply sum_range_ext. intros k _.
  rewrite <- sum_range_scale. apply sum_range_ext. intros j _. ring.
Qed.

Lemma mat_vec_ext (A B : mat S) n (x y : vect S) i :
  (forall j, (0 <= j < n)%Z -> A i j = B i j) -> (forall j, (0 <= j < n)%Z -> x j = y j) ->
  mat_vec A n x i = mat_vec B n y i.
Proof. intros HA Hx. apply sum_range_ext. intros j Hj. now rewrite HA, Hx. Qed.

End Sums.
