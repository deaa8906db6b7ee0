(** Properties C60 and C61: the threaded product of distributed matrices. *)

From Coq Require Import ZArith List Bool Lia.
From Verif Require Import Base Scalar Spec Dense Sparse SumFacts CsrFacts SortProofs Examples Par ParSpec ParExamples
  Threads HypreOps HypreSpec HypreValue HypreLinks.
Import ListNotations.
Open Scope Z_scope.

(* ---------------------------------------------------------------- C60 *)

(** With any number n of threads every row belongs to exactly one thread. *)
Theorem C60_one_thread :
  forall rows n i : Z, 0 <= rows -> 0 < n -> 0 <= i < rows ->
  exists! t, 0 <= t < n /\ fst (thread_range rows n t) <= i < snd (thread_range rows n t).
Proof. exact thread_range_owner. Qed.
Print Assumptions C60_one_thread.

(** The ranges start at row 0, are adjacent and end at the last row. *)
Theorem C60_adjacent :
  forall rows n : Z, 0 <= rows -> 0 < n ->
  fst (thread_range rows n 0) = 0 /\ snd (thread_range rows n (n - 1)) = rows /\
  (forall t, 0 <= t < n - 1 -> snd (thread_range rows n t) = fst (thread_range rows n (t + 1))) /\
  forall t, 0 <= t < n -> fst (thread_range rows n t) <= snd (thread_range rows n t).
Proof. exact thread_range_tiles. Qed.
Print Assumptions C60_adjacent.

(** Two threads differ by at most one row. *)
Theorem C60_even :
  forall rows n s t : Z, 0 <= rows -> 0 < n -> 0 <= s < n -> 0 <= t < n ->
  snd (thread_range rows n s) - fst (thread_range rows n s) <= snd (thread_range rows n t) - fst (thread_range rows n t) + 1.
Proof. exact thread_range_even. Qed.
Print Assumptions C60_even.

(** The whole result, row pointers included, is the same for every number of threads and every
    interleaving, for all scalars, rounding included.  A data race or an access outside an array
    would make the outcome undefined instead. *)
Theorem C60_threads :
  forall (S : scalar) (srt : sorter) (bsearch : list Z -> Z -> Z -> Z) (reorder : csr S -> csr S), sorts srt -> finds bsearch -> reorders reorder ->
  forall (G : mat S) (A B : parmat S) (ext : option (csr S)), pm_valid A -> pm_valid B -> pm_cs A = pm_rs B -> extracted G A B ext ->
  exists C, (forall n sched, 0 < n -> par_mult n sched srt bsearch reorder ext A B = Ok C) /\
    pm_valid C /\ pm_rs C = pm_rs A /\ pm_cs C = pm_cs B /\
    forall i, 0 <= i < pm_rows C -> NoDup (map ecol (row_entries (pm_diag C) i)) /\ NoDup (map ecol (row_entries (pm_offd C) i)).
Proof. exact @par_mult_threads. Qed.
Print Assumptions C60_threads.

(** The model of the threads does tell racing programs apart: two threads that write one cell, and
    a thread that writes a cell another one reads. *)
Example C60_races :
  par_phase [0; 1] [wr 0 0 5; wr 0 0 6] [[1; 2]] = Fail FUB /\
  par_phase [0; 1] [wr 0 0 5; Rd 0 0 (fun v => wr 0 1 v)] [[1; 2]] = Fail FUB /\
  exists r, par_phase [0; 1] [wr 0 0 5; wr 0 1 6] [[1; 2]] = Ok r.
Proof. split; [reflexivity|]. split; [reflexivity|]. eexists. reflexivity. Qed.

(* ---------------------------------------------------------------- C61 *)

(** One rank: its rows of the product are its rows of A times the global matrix G of B. *)
Theorem C61_product :
  forall (S : scalar) (srt : sorter) (bsearch : list Z -> Z -> Z -> Z) (reorder : csr S -> csr S), sorts srt -> finds bsearch -> reorders reorder -> ring_laws S ->
  forall (G : mat S) (A B : parmat S) (ext : option (csr S)), pm_valid A -> pm_valid B -> pm_cs A = pm_rs B -> extracted G A B ext ->
  (forall k j, zn 0 (pm_rs B) 0 <= k < zn 0 (pm_rs B) 1 -> G k j = pm_mat B k j) ->
  exists C, (forall n sched, 0 < n -> par_mult n sched srt bsearch reorder ext A B = Ok C) /\
    pm_valid C /\ pm_rs C = pm_rs A /\ pm_cs C = pm_cs B /\
    forall i j, pm_mat C i j = mat_mul (pm_mat A) G (pm_gcols A) i j.
Proof. exact @par_mult_value. Qed.
Print Assumptions C61_product.

(** All ranks: the blocks of the result hold the product of the two global matrices, whatever the
    numbers of threads and the schedules of the ranks. *)
Theorem C61_world :
  forall (S : scalar) (srt : sorter) (bsearch : list Z -> Z -> Z -> Z) (reorder : csr S -> csr S), sorts srt -> finds bsearch -> reorders reorder -> ring_laws S ->
  forall (As Bs : list (parmat S)) (exts : list (option (csr S))) (N : Z), zlen Bs = zlen As -> zlen exts = zlen As ->
  (forall r A B ext, get As r = Ok A -> get Bs r = Ok B -> get exts r = Ok ext ->
     pm_valid A /\ pm_valid B /\ pm_cs A = pm_rs B /\ pm_gcols A = N /\ extracted (world_mat Bs) A B ext) ->
  (forall r q B B', r <> q -> get Bs r = Ok B -> get Bs q = Ok B' -> zn 0 (pm_rs B) 1 <= zn 0 (pm_rs B') 0 \/ zn 0 (pm_rs B') 1 <= zn 0 (pm_rs B) 0) ->
  exists Cs, (forall n sched, (forall r, 0 < n r) ->
      ranks (zlen As) (fun r => A <- get As r ;; B <- get Bs r ;; ext <- get exts r ;; par_mult (n r) (sched r) srt bsearch reorder ext A B) = Ok Cs) /\
    zlen Cs = zlen As /\
    (forall r A B C, get As r = Ok A -> get Bs r = Ok B -> get Cs r = Ok C -> pm_valid C /\ pm_rs C = pm_rs A /\ pm_cs C = pm_cs B) /\
    forall i j, world_mat Cs i j = mat_mul (world_mat As) (world_mat Bs) N i j.
Proof. exact @par_mult_world. Qed.
Print Assumptions C61_world.

(** One process. *)
Theorem C61_single :
  forall (S : scalar) (srt : sorter) (bsearch : list Z -> Z -> Z -> Z) (reorder : csr S -> csr S), sorts srt -> finds bsearch -> reorders reorder -> ring_laws S ->
  forall A B : parmat S, pm_valid A -> pm_valid B -> pm_cs A = pm_rs B ->
  zn 0 (pm_cs A) 0 = 0 -> zn 0 (pm_cs A) 1 = zn 0 (pm_cs A) 2 ->
  exists C, (forall n sched, 0 < n -> par_mult n sched srt bsearch reorder None A B = Ok C) /\
    pm_valid C /\ pm_rs C = pm_rs A /\ pm_cs C = pm_cs B /\
    forall i j, pm_mat C i j = mat_mul (pm_mat A) (pm_mat B) (pm_gcols A) i j.
Proof. exact @par_mult_single. Qed.
Print Assumptions C61_single.

(** Sizes that do not match are refused. *)
Theorem C61_refuses :
  forall (S : scalar) (srt : sorter) (bsearch : list Z -> Z -> Z -> Z) (reorder : csr S -> csr S) (A B : parmat S) ext n sched,
  pm_gcols A <> pm_grows B \/ c_cols (pm_diag A) <> c_rows (pm_diag B) -> par_mult n sched srt bsearch reorder ext A B = Fail FAssert.
Proof. exact @par_mult_refuses. Qed.
Print Assumptions C61_refuses.

(** The rows of the second matrix that the ranks ask for. *)
Definition exX0 : csr Zs := @CSR Zs 2 4 [0; 2; 4] [0; 2; 1; 3] [5; 6; 7; 8].
Definition exX1 : csr Zs := @CSR Zs 0 4 [0] [] [].

Lemma exX0_extracted : extracted (world_mat [exP0; exP1]) exQ0 exP0 (Some exX0).
Proof.
  split; [apply csr_validb_ok; reflexivity|]. split; [reflexivity|]. split; [reflexivity|]. intros k j Hk. change (zlen (pm_map exQ0)) with 2 in Hk.
  destruct (Z_le_gt_dec 0 j) as [H0|H0]; [destruct (Z_lt_ge_dec j 4) as [H4|H4]|].
  - assert (k = 0 \/ k = 1) as [-> | ->] by lia; assert (j = 0 \/ j = 1 \/ j = 2 \/ j = 3) as [-> | [-> | [-> | ->]]] by lia; reflexivity.
  - unfold csr_mat, world_mat, mat_of. rewrite !filter_none; [reflexivity| |]; intros e He; unfold at_pos; vm_compute in He; repeat (destruct He as [<-|He]; [cbn [erow ecol fst snd]; lia|]); contradiction.
  - unfold csr_mat, world_mat, mat_of. rewrite !filter_none; [reflexivity| |]; intros e He; unfold at_pos; vm_compute in He; repeat (destruct He as [<-|He]; [cbn [erow ecol fst snd]; lia|]); contradiction.
Qed.

Lemma exX1_extracted : extracted (world_mat [exP0; exP1]) exQ1 exP1 (Some exX1).
Proof.
  split; [apply csr_validb_ok; reflexivity|]. split; [reflexivity|]. split; [reflexivity|]. intros k j Hk. change (zlen (pm_map exQ1)) with 0 in Hk. lia.
Qed.

Definition exQP (n : Z) (sched : Z -> list Z) : res (list (parmat Zs)) :=
  C0 <- par_mult n sched insertion_sort linear_search no_reorder (Some exX0) exQ0 exP0 ;;
  C1 <- par_mult n sched insertion_sort linear_search no_reorder (Some exX1) exQ1 exP1 ;; Ok [C0; C1].

(** The hypotheses of the theorems hold for the product of the two example matrices; one thread,
    three threads and four threads in other orders give the same blocks, and these are
    [ 10 25 | 12 24 ]
    [  0 28 |  0 32 ]
    [  5  7 |  6  8 ]
    [  0  0 |  0  0 ] *)
Example C61_instance :
  (sorts insertion_sort /\ finds linear_search /\ reorders (@no_reorder Zs) /\ ring_laws Zs) /\
  (forall r A B ext, get [exQ0; exQ1] r = Ok A -> get [exP0; exP1] r = Ok B -> get [Some exX0; Some exX1] r = Ok ext ->
     pm_valid A /\ pm_valid B /\ pm_cs A = pm_rs B /\ pm_gcols A = 4 /\ extracted (world_mat [exP0; exP1]) A B ext) /\
  (forall r q B B', r <> q -> get [exP0; exP1] r = Ok B -> get [exP0; exP1] q = Ok B' -> zn 0 (pm_rs B) 1 <= zn 0 (pm_rs B') 0 \/ zn 0 (pm_rs B') 1 <= zn 0 (pm_rs B) 0) /\
  exists Cs, exQP 1 (fun _ => []) = Ok Cs /\ exQP 3 (fun _ => [2; 1; 0; 2; 2; 1]) = Ok Cs /\ exQP 4 (fun p => [p; 0; 3; 0; 1; 2; 1; 3]) = Ok Cs /\
    map (fun i => map (world_mat Cs i) [0; 1; 2; 3]) [0; 1; 2; 3] = [[10; 25; 12; 24]; [0; 28; 0; 32]; [5; 7; 6; 8]; [0; 0; 0; 0]].
Proof.
  split; [exact (conj insertion_sort_sorts (conj linear_search_finds (conj no_reorder_ok Zs_ring)))|]. split; [|split].
  - intros r A B ext EA EB EX.
    assert (r = 0 \/ r = 1) as [-> | ->].
    { apply (get_Ok_inv exQ0) in EA. destruct EA as (Hr & _). change (zlen [exQ0; exQ1]) with 2 in Hr. lia. }
    + injection EA as <-. injection EB as <-. injection EX as <-. refine (conj exQ0_valid (conj exP0_valid (conj eq_refl (conj eq_refl exX0_extracted)))).
    + injection EA as <-. injection EB as <-. injection EX as <-. refine (conj exQ1_valid (conj exP1_valid (conj eq_refl (conj eq_refl exX1_extracted)))).
  - intros r q B B' N E1 E2.
    assert (H1 : r = 0 \/ r = 1) by (apply (get_Ok_inv exQ0) in E1; destruct E1 as (Hr & _); change (zlen [exP0; exP1]) with 2 in Hr; lia).
    assert (H2 : q = 0 \/ q = 1) by (apply (get_Ok_inv exQ0) in E2; destruct E2 as (Hr & _); change (zlen [exP0; exP1]) with 2 in Hr; lia).
    destruct H1 as [-> | ->], H2 as [-> | ->]; try congruence; injection E1 as <-; injection E2 as <-; first [left; vm_compute; discriminate|right; vm_compute; discriminate].
  - result_of (exQP 1 (fun _ => [])) ltac:(fun f => exists f). vm_compute. repeat split.
Qed.
