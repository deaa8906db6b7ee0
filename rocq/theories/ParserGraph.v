(** Graph files and symmetric files. *)

From Coq Require Import ZArith List Bool Lia String Ring.
From Verif Require Import Base Scalar Spec Dense Sparse Coo CooSpec Text Parser ParserSpec TextProofs ParserProofs ParserMore.
From Verif Require Import SumFacts LoopFacts CsrFacts Rows CooProofs CooMore HistoryProofs.
Import ListNotations.
Open Scope Z_scope.

Section Graph.
Context {S : scalar}.
Notation T := (car S).
Notation csr := (csr S).

Definition graph_entries (ps : list (Z * Z)) : list (entry S) := flat_map edge_entries (edges ps).

Lemma graph_fold ps : forall M,
  foldM (fun M (p : Z * Z) => let (i, j) := p in
            if i <? j then
              M <- coo_add M j i (sopp s1) ;; M <- coo_add M i j (sopp s1) ;;
              M <- coo_add M i i s1 ;; coo_add M j j s1
            else Ok M) ps M = foldM coo_add_entry (graph_entries ps) M.
Proof.
  induction ps as [|[i j] ps IH]; intros M; [reflexivity|]. unfold graph_entries, edges in *. cbn [foldM filter fst snd].
  destruct (i <? j); [|apply IH]. cbn [flat_map]. rewrite foldM_app. unfold edge_entries at 1, coo_add_entry at 1. cbn [foldM erow ecol evalue fst snd].
  destruct (coo_add M j i (sopp s1)) as [M1|]; [|reflexivity]. cbn [bind].
  destruct (coo_add M1 i j (sopp s1)) as [M2|]; [|reflexivity]. cbn [bind].
  destruct (coo_add M2 i i s1) as [M3|]; [|reflexivity]. cbn [bind].
  destruct (coo_add M3 j j s1) as [M4|]; [|reflexivity]. cbn [bind]. apply IH.
Qed.

Lemma graph_reads file : read_graph_list (S := S) file =
  (M <- foldM coo_add_entry (graph_entries (records (extract2 scan_int scan_int) file)) coo_new ;; coo_to_sparse M).
Proof.
  unfold read_graph_list. rewrite while_records by apply extract2_consumes.
  rewrite <- graph_fold. reflexivity.
Qed.

Lemma graph_bound ps : Forall (fun p => 0 <= fst p) (edges ps) ->
  bound erow (graph_entries ps) = col_bound (map snd (edges ps)) /\ bound ecol (graph_entries ps) = col_bound (map snd (edges ps)).
Proof.
  unfold graph_entries. assert (H : forall p, In p (edges ps) -> fst p < snd p) by (intros p Hp; apply filter_In in Hp; destruct Hp; lia).
  revert H. induction (edges ps) as [|[i j] es IH]; intros H Hf; [split; reflexivity|].
  destruct IH as (I1 & I2); [intros p Hp; apply H; right; exact Hp|exact (Forall_inv_tail Hf)|].
  specialize (H (i, j) (or_introl eq_refl)). cbn [fst snd] in H. unfold bound, col_bound in *.
  cbn [flat_map edge_entries app map fold_right fst snd erow ecol]. rewrite I1, I2. lia.
Qed.

Lemma edges_addable ps : seqb (s1 : T) s1 = true -> seqb (sopp s1 : T) (sopp s1) = true -> Forall (fun p => 0 <= fst p) (edges ps) -> addable (graph_entries ps).
Proof.
  intros H1 H2 Hf. unfold addable, graph_entries. rewrite Forall_forall in *. intros e He. apply in_flat_map in He. destruct He as ([i j] & Hp & He).
  specialize (Hf _ Hp). apply filter_In in Hp. destruct Hp as (_ & Hp). cbn [fst snd] in *. apply Z.ltb_lt in Hp.
  destruct He as [<-|[<-|[<-|[<-|[]]]]]; cbn; repeat split; auto; lia.
Qed.

Lemma graph_any file : seqb (s1 : T) s1 = true -> seqb (sopp s1 : T) (sopp s1) = true ->
  let es := edges (records (extract2 scan_int scan_int) file) in
  if forallb (fun p => 0 <=? fst p) es
  then assembles (S := S) (read_graph_list file) (Z.max 1 (col_bound (map snd es))) (Z.max 1 (col_bound (map snd es))) (flat_map edge_entries es)
  else read_graph_list (S := S) file = Fail FAssert.
Proof.
  intros H1 H2 es. rewrite graph_reads. set (ps := records _ file) in *. destruct (forallb (fun p => 0 <=? fst p) es) eqn:E.
  - assert (Hf : Forall (fun p => 0 <= fst p) (edges ps)).
    { rewrite Forall_forall. rewrite forallb_forall in E. intros p Hp. specialize (E p Hp). cbv beta in E. lia. }
    destruct (graph_bound ps Hf) as (B1 & B2). fold es in B1, B2. rewrite <- B1 at 1. rewrite <- B2. apply assemble_undeclared, edges_addable; auto.
  - assert (Hex : Exists (fun e : entry S => ecol e < 0) (graph_entries ps) ).
    { rewrite Exists_exists. assert (exists p, In p es /\ (0 <=? fst p) = false) as ([i j] & Hp & Hn).
      { clear -E. induction es as [|p es IH]; [discriminate|]. cbn in E. apply andb_false_iff in E. destruct E as [E|E].
        - exists p. split; [left; reflexivity|exact E].
        - destruct (IH E) as (q & Hq & Hn). exists q. split; [right; exact Hq|exact Hn]. }
      exists (j, i, sopp s1). split; [|cbn in *; lia]. unfold graph_entries. apply in_flat_map. exists (i, j). split; [exact Hp|]. left. reflexivity. }
    clear -Hex. assert (forall (l : list (entry S)) M, o_set M = false -> Exists (fun e : entry S => ecol e < 0) l -> foldM coo_add_entry l M = Fail FAssert) as G.
    { clear. induction l as [|e l IH]; intros M HM Hex; [inversion Hex|]. cbn [foldM]. unfold coo_add_entry, coo_add. rewrite HM.
      destruct (Z.leb_spec 0 (erow e)); [|reflexivity]. cbn [assert_ bind]. destruct (Z.leb_spec 0 (ecol e)); [|reflexivity]. cbn [assert_ bind].
      inversion Hex as [? ? Hx|? ? Hx]; subst; [lia|]. destruct (seqb (evalue e) (evalue e)); [|reflexivity]. cbn [assert_ bind]. apply IH; [reflexivity|exact Hx]. }
    rewrite G by (auto; reflexivity). reflexivity.
Qed.

(* ---------------------------------------------------------------- the matrix *)

Section Exact.
Context (R : ring_laws S).
Let Rth : ring_theory (@s0 S) s1 sadd smul ssub sopp (@eq (car S)) := R.
Add Ring GraphRing : Rth.
Local Open Scope S_scope.

Lemma copies_S n (a : T) : copies (Datatypes.S n) a = a + copies n a.
Proof. reflexivity. Qed.
Lemma copies_opp n (a : T) : copies n (- a) = - copies n a.
Proof. induction n as [|n IH]; [unfold copies; cbn; ring|]. rewrite !copies_S, IH. ring. Qed.

Lemma mat_of_edge (p : Z * Z) i j : (fst p < snd p)%Z ->
  mat_of (S := S) (edge_entries p) i j =
    if (i =? j)%Z then (if ((fst p =? i) || (snd p =? i))%Z then s1 else s0)
    else (if (((fst p =? i) && (snd p =? j)) || ((fst p =? j) && (snd p =? i)))%Z then - s1 else s0).
Proof.
  destruct p as [a b]. cbn [fst snd]. intros H. unfold mat_of, edge_entries, at_pos. cbn [fst snd filter erow ecol].
  destruct (Z.eqb_spec i j); destruct (Z.eqb_spec a i); destruct (Z.eqb_spec b j); destruct (Z.eqb_spec a j); destruct (Z.eqb_spec b i); subst; try lia;
    cbn [andb orb map filter evalue snd sum_list fold_right]; try ring.
Qed.

Lemma graph_mat es i j : Forall (fun p => fst p < snd p)%Z es ->
  mat_of (S := S) (flat_map edge_entries es) i j = if (i =? j)%Z then copies (degree es i) s1 else - copies (multiplicity es i j) s1.
Proof.
  induction 1 as [|p es Hp _ IH].
  - cbn. destruct (i =? j)%Z; unfold copies; cbn; ring.
  - cbn [flat_map]. rewrite (mat_of_app R), (mat_of_edge p i j Hp), IH. unfold degree, multiplicity. cbn [filter].
    destruct (i =? j)%Z.
    + destruct ((fst p =? i) || (snd p =? i))%Z; [cbn [List.length]; rewrite copies_S|]; ring.
    + destruct (((fst p =? i) && (snd p =? j)) || ((fst p =? j) && (snd p =? i)))%Z; [cbn [List.length]; rewrite copies_S|]; ring.
Qed.

Lemma graph_symmetric es i j : Forall (fun p => fst p < snd p)%Z es -> mat_of (S := S) (flat_map edge_entries es) i j = mat_of (S := S) (flat_map edge_entries es) j i.
Proof.
  intros H. rewrite !graph_mat by exact H. rewrite (Z.eqb_sym j i). destruct (Z.eqb_spec i j) as [->|E]; [reflexivity|].
  do 2 f_equal. unfold multiplicity. f_equal. apply filter_ext. intros p. apply orb_comm.
Qed.
Lemma graph_row_sum es n i : Forall (fun p => 0 <= fst p /\ fst p < snd p /\ snd p < n)%Z es -> sum_range 0 n (mat_of (S := S) (flat_map edge_entries es) i) = s0.
Proof.
  induction 1 as [|p es (H1 & H2 & H3) _ IH].
  - apply (sum_range_0 R). intros. reflexivity.
  - cbn [flat_map]. rewrite (sum_range_ext 0 n _ (fun j => mat_of (S := S) (edge_entries p) i j + mat_of (S := S) (flat_map edge_entries es) i j)) by (intros; apply (mat_of_app R)).
    rewrite (sum_range_add R). fold (mat_of (S := S) (flat_map edge_entries es) i) in *. change (fun j => mat_of (S := S) (flat_map edge_entries es) i j) with (mat_of (S := S) (flat_map edge_entries es) i). rewrite IH.
    rewrite (sum_range_ext 0 n _ (fun j => (if (j =? fst p)%Z then (if (fst p =? i)%Z then s1 else s0) + (if (snd p =? i)%Z then - s1 else s0) else s0) +
       (if (j =? snd p)%Z then (if (snd p =? i)%Z then s1 else s0) + (if (fst p =? i)%Z then - s1 else s0) else s0))).
    + rewrite (sum_range_add R), !(sum_range_delta R) by lia. destruct (fst p =? i)%Z, (snd p =? i)%Z; ring.
    + intros j Hj. rewrite mat_of_edge by exact H2. destruct p as [a b]. cbn [fst snd] in *.
      destruct (Z.eqb_spec i j); destruct (Z.eqb_spec a i); destruct (Z.eqb_spec b j); destruct (Z.eqb_spec a j); destruct (Z.eqb_spec b i); destruct (Z.eqb_spec j a); destruct (Z.eqb_spec j b); subst; try lia; cbn [andb orb]; try ring.
Qed.

(* ---------------------------------------------------------------- mirrored entries *)

Lemma mat_of_upper (l : list (entry S)) i j : mat_of (filter (upper true) l) i j = if (i <=? j)%Z then mat_of l i j else (s0 : T).
Proof.
  induction l as [|e l IH]; cbn [filter].
  - rewrite !mat_of_nil. destruct (i <=? j)%Z; reflexivity.
  - unfold upper at 1. cbn [negb orb]. destruct (Z.leb_spec (erow e) (ecol e)); rewrite ?(mat_of_cons R), IH; unfold at_pos;
    destruct (Z.eqb_spec (erow e) i), (Z.eqb_spec (ecol e) j), (Z.leb_spec i j); subst; cbn [andb]; try lia; ring.
Qed.
Lemma mat_of_mirror (l : list (entry S)) i j : Forall (fun e => (erow e <= ecol e)%Z) l ->
  mat_of (mirror l) i j = if (i <=? j)%Z then mat_of l i j else mat_of l j i.
Proof.
  induction 1 as [|e l He _ IH].
  - unfold mirror. cbn [flat_map]. rewrite !mat_of_nil. destruct (i <=? j)%Z; reflexivity.
  - unfold mirror in *. cbn [flat_map]. rewrite (mat_of_app R), IH. rewrite !(mat_of_cons R e l).
    destruct (Z.eqb_spec (erow e) (ecol e)); rewrite ?(mat_of_cons R); change (mat_of [] i j) with (s0 : T); unfold at_pos; cbn [erow ecol evalue fst snd];
      destruct (Z.eqb_spec (erow e) i), (Z.eqb_spec (ecol e) j), (Z.eqb_spec (erow e) j), (Z.eqb_spec (ecol e) i), (Z.leb_spec i j); cbn [andb]; subst; try lia; try ring.
Qed.
End Exact.

End Graph.
