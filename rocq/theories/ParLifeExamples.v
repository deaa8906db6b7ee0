(** A history of parallel objects for the examples, and a check that a history is allowed. *)

From Coq Require Import ZArith List Bool Lia.
From Verif Require Import Base Scalar Spec Dense Sparse Par ParSpec ParProofs ParExamples HypreNorms ParLife ParLifeSpec ParLifeProofs.
Import ListNotations.
Open Scope Z_scope.

Section Check.
Context {S : scalar}.

Definition is_null (p : pointer) : bool := match p with Null => true | _ => false end.
Definition good {A} (m : res A) : bool := match m with Ok _ => true | Fail _ => false end.

Definition squareb (os : list (option (obj (S := S)))) (i : Z) : bool :=
  match look_mat os i with
  | Ok m => negb (is_null (mo_A m)) && (op_rows (mo_op m) =? op_cols (mo_op m)) && (pm_grows (mo_val m) =? pm_gcols (mo_val m))
  | Fail _ => false
  end.

Definition copyableb (o : obj (S := S)) : bool :=
  match o with
  | OMat _ => true
  | OVec v => negb (is_null (vo_p v))
  | OSol Sails s => is_null (so_solver s)
  | OSol Smoother s => negb (is_null (sm_shell (so_smooth s)))
  | OSol _ _ => true
  end.

Definition movableb (o : obj (S := S)) : bool := match o with OSol Base _ | OSol Smoother _ => false | _ => true end.

Definition alikeb (os : list (option (obj (S := S)))) (i j : Z) : bool :=
  match look os i, look os j with
  | Ok (OMat _), Ok (OMat _) | Ok (OVec _), Ok (OVec _) => true
  | Ok (OSol c _), Ok (OSol d _) => class_eqb c d
  | _, _ => false
  end.

Definition lookb (os : list (option (obj (S := S)))) (i : Z) (p : obj (S := S) -> bool) : bool := match look os i with Ok o => p o | Fail _ => false end.

Definition allowedb (e : env (S := S)) (os : list (option (obj (S := S)))) (op : lop (S := S)) : bool :=
  match op with
  | LMat rs cs diag offd col_map => good (pm_make (fun d => d) rs cs diag offd col_map)
  | LVec l part => good (pv_init (zlen l) part)
  | LMat0 | LVec0 | LSol0 _ => true
  | LAMG i _ _ _ | LSails i _ _ _ _ _ _ _ | LCG i _ _ _ | LDiag i _ _ _ | LBase i => squareb os i
  | LSmooth i type _ _ _ =>
      squareb os i && match look_mat os i with Ok m => good (l1_norms (e_half e) (e_ratio e) type (pm_copy (e_reorder e) (mo_val m)) []) | Fail _ => false end
  | LCopy i => lookb os i copyableb
  | LMove i => lookb os i movableb
  | LAssign i j => alikeb os i j && lookb os j copyableb
  | LMoveAssign i j => alikeb os i j && lookb os j movableb
  | LSwap i j => alikeb os i j
  | LDestroy i => good (look os i)
  end.

Lemma good_ok {A} (m : res A) : good m = true -> exists a, m = Ok a.
Proof. destruct m as [a|]; [intros _; now exists a|discriminate]. Qed.

Lemma is_null_ok p : is_null p = false -> p <> Null.
Proof. intros E ->. discriminate. Qed.

Lemma squareb_ok os i : squareb os i = true -> square os i.
Proof.
  unfold squareb, square. destruct (look_mat os i) as [m|]; [|discriminate]. intros E. apply andb_prop in E. destruct E as (E & E3). apply andb_prop in E. destruct E as (E1 & E2).
  exists m. split; [reflexivity|]. split; [apply is_null_ok; now apply negb_true_iff|]. split; now apply Z.eqb_eq.
Qed.

Lemma copyableb_ok o : copyableb o = true -> copyable o.
Proof.
  destruct o as [m|v|c s]; cbn; try trivial.
  - intros E. apply is_null_ok. now apply negb_true_iff.
  - destruct c; trivial; [destruct (so_solver s); [reflexivity|discriminate|discriminate]|]. intros E. apply is_null_ok. now apply negb_true_iff.
Qed.

Lemma movableb_ok o : movableb o = true -> movable o.
Proof. destruct o as [m|v|c s]; cbn; trivial. destruct c; trivial; discriminate. Qed.

Lemma alikeb_ok os i j : alikeb os i j = true -> alike os i j.
Proof.
  unfold alikeb, alike. destruct (look os i) as [a|]; [|discriminate]. destruct (look os j) as [b|]; [|destruct a; discriminate].
  destruct a as [m|v|c s], b as [m'|v'|c' s']; try discriminate; trivial. now destruct c, c'.
Qed.

Lemma lookb_ok os i p : lookb os i p = true -> exists o, look os i = Ok o /\ p o = true.
Proof. unfold lookb. destruct (look os i) as [o|]; [|discriminate]. intros E. now exists o. Qed.

Lemma allowedb_ok e os op : allowedb e os op = true -> allowed e os op.
Proof.
  destruct op; cbn [allowedb allowed]; try trivial; try apply squareb_ok; try apply good_ok.
  - intros E. apply andb_prop in E. destruct E as (E1 & E2). split; [now apply squareb_ok|]. intros m Em. rewrite Em in E2. now apply good_ok.
  - intros E. destruct (lookb_ok _ _ _ E) as (o & E1 & E2). exists o. split; [exact E1|now apply copyableb_ok].
  - intros E. destruct (lookb_ok _ _ _ E) as (o & E1 & E2). exists o. split; [exact E1|now apply movableb_ok].
  - intros E. apply andb_prop in E. destruct E as (E1 & E2). split; [now apply alikeb_ok|]. intros o Eo. destruct (lookb_ok _ _ _ E2) as (o' & E3 & E4). replace o with o' by congruence. now apply copyableb_ok.
  - intros E. apply andb_prop in E. destruct E as (E1 & E2). split; [now apply alikeb_ok|]. intros o Eo. destruct (lookb_ok _ _ _ E2) as (o' & E3 & E4). replace o with o' by congruence. now apply movableb_ok.
  - apply alikeb_ok.
Qed.

Fixpoint checkb (e : env (S := S)) (ops : list (lop (S := S))) (st : lstate (S := S)) : bool :=
  match ops with
  | [] => true
  | op :: ops => allowedb e (fst st) op && match lstep e st op with Ok st' => checkb e ops st' | Fail _ => false end
  end.

Lemma checked (e : env (S := S)) ops st : checkb e ops ([], Heap [] 0) = true -> lrun e ops = Ok st -> reach e st.
Proof.
  unfold lrun. generalize (reach_start e). generalize (([], Heap [] 0) : lstate (S := S)). induction ops as [|op ops IH]; intros s0 R C E; cbn [checkb foldM] in *.
  - now injection E as <-.
  - apply andb_prop in C. destruct C as (C1 & C2). destruct (lstep e s0 op) as [s1|] eqn:E1; [|discriminate]. cbn [bind] in E.
    apply (IH s1); try assumption. exact (reach_step e s0 op s1 R (allowedb_ok _ _ _ C1) E1).
Qed.

End Check.

(** [ 1  2 | 0 3 ]
    [ 0 -4 | 0 0 ]   the rows of one of two ranks *)
Definition exL0' : parmat Zs := ParMat [0; 2; 4] [0; 2; 4] (@CSR Zs 2 2 [0; 2; 3] [0; 1; 1] [1; 2; -4]) (@CSR Zs 2 1 [0; 1; 1] [0] [3]) [3].

Definition exEnv : env (S := Zs) := @Env Zs no_reorder 0 0 0 (fun t => t).

Definition exHistory : list (lop (S := Zs)) :=
  [@LMat Zs [0; 2; 4] [0; 2; 4] (pm_diag exL0') (pm_offd exL0') (pm_map exL0');   (* 0 *)
   @LVec Zs [5; 6] [0; 2; 4];                                                  (* 1 *)
   @LCG Zs 0 100 3 false;                                                        (* 2 *)
   @LAMG Zs 0 10 3 true;                                                        (* 3 *)
   @LDiag Zs 0 10 3 false;                                                       (* 4 *)
   @LSmooth Zs 0 1 2 1 1;                                                        (* 5 *)
   @LSails Zs 0 false 1 2 3 4 5 6;                                               (* 6 *)
   LCopy 0; LCopy 1; LCopy 2; LCopy 5;                                         (* 7 8 9 10 *)
   LMove 6; LMove 7;                                                           (* 11 12 *)
   LSwap 2 9; LAssign 1 8; LMoveAssign 12 0; LSwap 3 3; LMoveAssign 3 3; LAssign 4 4;
   LDestroy 0; LDestroy 1; LDestroy 2; LDestroy 3; LDestroy 4; LDestroy 5; LDestroy 6;
   LDestroy 7; LDestroy 8; LDestroy 9; LDestroy 10; LDestroy 11; LDestroy 12].
