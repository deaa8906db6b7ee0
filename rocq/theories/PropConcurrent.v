(** C103: members called by several threads at the same time. *)

From Coq Require Import ZArith List Lia.
From Verif Require Import Base Scalar Spec Sparse Threads Examples LifeProofs Concurrent ConcurrentSpec ConcurrentProofs ConcurrentRaces.
Import ListNotations.
Open Scope list_scope.
Open Scope Z_scope.

(** Any number of threads call Mult, MultAT and const members that return new objects on shared matrices and vectors,
    and change matrices no other thread uses: under every schedule there is no data race, every call returns and
    writes what it does alone, and nothing else changes.  The matrices need not be valid, the arithmetic needs no laws. *)
Theorem C103_concurrent_calls_partial :
  forall (S : scalar) (R : Type) (sched : list Z) (calls : list (call S R)) (outs : list (option R * list (list (cell S)))) (m : mem (cell S)),
  apart calls -> Forall2 (fun c o => gives m c (fst o) (snd o)) calls outs ->
  exists m', par_phase sched (map t_call calls) m = Ok (map fst outs, m') /\
    Forall2 (fun c o => map (get m') (changes c) = map (fun l => Ok l) (snd o)) calls outs /\
    forall a, ~ In a (flat_map changes calls) -> get m' a = get m a.
Proof. exact @calls_ok. Qed.
Print Assumptions C103_concurrent_calls_partial.

(** The iterative solvers, BlockOperator and LilMatrix write members of the object in const functions.  Two threads that
    call the same object race, whatever the functions do afterwards. *)
Theorem C103_pcg_refuted :
  forall (S : scalar) (R : Type) (m : mem (cell S)) (M : smat) (A : csr S) (X : Z) (x : list (car S)) (X' : Z) (x' : list (car S)) (Ap : Z)
    (ap y y' : list (car S)) (k k' : prog (cell S) R),
  is_matrix_at m M A -> is_vector_at m X x -> is_vector_at m X' x' -> zlen ap = c_rows A -> 0 < c_rows A ->
  sp_mult A x ap = Ok y -> sp_mult A x' ap = Ok y' ->
  exists sched, par_phase sched [t_pcg M X Ap k; t_pcg M X' Ap k'] m = Fail FUB.
Proof. exact @pcg_race. Qed.
Print Assumptions C103_pcg_refuted.

Theorem C103_minres_refuted :
  forall (S : scalar) (R : Type) (m : mem (cell S)) (w n : Z) (k k' : prog (cell S) R), 0 < n ->
  exists sched, par_phase sched [t_minres w n k; t_minres w n k'] m = Fail FUB.
Proof. exact @minres_race. Qed.
Print Assumptions C103_minres_refuted.

Theorem C103_block_operator_refuted :
  forall (S : scalar) (R : Type) (m : mem (cell S)) (X : Z) (x : list (car S)) (X' : Z) (x' : list (car S)) (w n : Z) (k k' : prog (cell S) R),
  is_vector_at m X x -> is_vector_at m X' x' -> 0 < n <= zlen x -> n <= zlen x' ->
  exists sched, par_phase sched [t_blockop X w n k; t_blockop X' w n k'] m = Fail FUB.
Proof. exact @blockop_race. Qed.
Print Assumptions C103_block_operator_refuted.

Theorem C103_lil_to_sparse_refuted :
  forall (S : scalar) (R : Type) (m : mem (cell S)) (L : Z) (row : list (Z * car S)) (srt : list (Z * car S) -> list (Z * car S)) (k k' : prog (cell S) R),
  get m L = Ok (row_cells row) -> zlen (srt row) = zlen row ->
  (exists i p q, get row i = Ok p /\ get (srt row) i = Ok q /\ moved p q = true) ->
  exists sched, par_phase sched [t_lil_row L (zlen row) srt k; t_lil_row L (zlen row) srt k'] m = Fail FUB.
Proof. exact @lil_race. Qed.
Print Assumptions C103_lil_to_sparse_refuted.

(** Four threads: exA x and exA^T z with the shared exA, a copy of exA transposed, and B *= 10 for a matrix of its own. *)
Definition cells (A : csr Zs) : list (list (cell Zs)) := [map CI (c_ptr A); map CI (c_idx A); map CV (c_val A)].
Definition exMem : mem (cell Zs) :=
  cells exA ++ cells exB ++ map (map (CV (S := Zs))) [[1; 2; 3]; [9; 9; 9; 9]; [1; 0; 2; 1]; [7; 7; 7]].
Definition exMA : smat := SMat 4 3 6 0 1 2.
Definition exMB : smat := SMat (c_rows exB) (c_cols exB) (zlen (c_val exB)) 3 4 5.
Definition exCalls : list (call Zs (csr Zs)) :=
  [ CMult exMA 6 3 7 4; CMultAT exMA 8 4 9 3; CNew [exMA] (fun As => A <- get As 0 ;; sp_transpose A); CScale (S := Zs) exMB 10 ].

Example C103_instance :
  apart exCalls /\
  (exists outs, Forall2 (fun c o => gives exMem c (fst o) (snd o)) exCalls outs) /\
  ('(_, m) <- par_phase [3; 0; 0; 1; 2; 2; 3; 1; 1; 0; 2; 0; 3; 3; 1; 0; 2] (map t_call exCalls) exMem ;;
   Ok [get m 7; get m 9; get m 5] =
   Ok (map (fun l => Ok (map (CV (S := Zs)) l)) [[7; 0; 14; 23]; [6; 14; 8]; [10; 20; 30; 40]])) /\
  is_matrix_at exMem exMA exA /\ is_vector_at (S := Zs) exMem 6 [1; 2; 3] /\ sp_mult exA [1; 2; 3] [9; 9; 9; 9] = Ok [7; 0; 14; 23] /\
  (let m := [row_cells (S := Zs) [(4, 5); (1, 7); (0, 2)]] in let srt := @rev (Z * Z) in
   get m 0 = Ok (row_cells (S := Zs) [(4, 5); (1, 7); (0, 2)]) /\ zlen (srt [(4, 5); (1, 7); (0, 2)]) = 3 /\
   get (srt [(4, 5); (1, 7); (0, 2)]) 0 = Ok (0, 2) /\ moved (S := Zs) (4, 5) (0, 2) = true /\
   par_phase [0; 0; 0; 0; 0; 0; 1; 1; 1; 1; 1; 1] [t_lil_row (S := Zs) 0 3 srt (Ret tt); t_lil_row (S := Zs) 0 3 srt (Ret tt)] m = Fail FUB).
Proof.
  assert (HA : is_matrix_at exMem exMA exA) by (repeat split; reflexivity).
  assert (HB : is_matrix_at exMem exMB exB) by (repeat split; reflexivity).
  split; [|split; [|split; [|split; [exact HA|split; [reflexivity|split; [reflexivity|]]]]]].
  - intros s t c d x Hs Ht.
    apply get_range in Hs, Ht. destruct Hs as (Bs & Hs), Ht as (Bt & Ht). change (zlen exCalls) with 4 in Bs, Bt.
    assert (Es : s = 0 \/ s = 1 \/ s = 2 \/ s = 3) by lia. assert (Et : t = 0 \/ t = 1 \/ t = 2 \/ t = 3) by lia.
    destruct Es as [-> |[-> |[-> | ->]]], Et as [-> |[-> |[-> | ->]]]; cbn in Hs, Ht; injection Hs as <-; injection Ht as <-; cbn; lia.
  - eexists [(_, _); (_, _); (_, _); (_, _)]. constructor; [|constructor; [|constructor; [|constructor; [|constructor]]]]; cbn [fst snd].
    + eapply (@gives_mult Zs _ _ _ exA _ [1; 2; 3] _ [9; 9; 9; 9]); [exact HA|reflexivity|reflexivity|cbn; lia|reflexivity].
    + eapply (@gives_multAT Zs _ _ _ exA _ [1; 0; 2; 1] _ [7; 7; 7]); [exact HA|reflexivity|reflexivity|cbn; lia|reflexivity].
    + eapply (@gives_new Zs _ _ _ [exA]); [constructor; [exact HA|constructor]|reflexivity].
    + apply (@gives_scale Zs _ _ _ exB). exact HB.
  - vm_compute. reflexivity.
  - vm_compute. repeat split; reflexivity.
Qed.
