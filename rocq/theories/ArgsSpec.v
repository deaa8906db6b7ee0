(** What the theorems about the command line parser and the timer talk about. *)

From Coq Require Import ZArith List Bool String Sorted.
From Verif Require Import Base Text Args.
Import ListNotations.
Open Scope Z_scope.

(** Two dashes begin a flag (that is what the code looks for; its documentation says one). *)
Definition flag_like (a : str) : Prop := exists r, a = txt "--" ++ r.
Definition dashed (a : str) : Prop := exists r, a = txt "-" ++ r.

(** How a line reads: a flag, with the next word as its value unless that begins a flag. *)
Inductive items : list str -> list (str * str) -> Prop :=
| items_nil : items [] []
| items_value f v r its : ~ flag_like v -> items r its -> items (f :: v :: r) ((f, v) :: its)
| items_alone f r its : match r with [] => True | v :: _ => flag_like v end -> items r its -> items (f :: r) ((f, []) :: its).

Definition str_dec : forall a b : str, {a = b} + {a <> b} := list_eq_dec Z.eq_dec.
(** The words of a command line: without the program name and without --help. *)
Definition words (argv : list str) : list str := remove str_dec (txt "--help") (tl argv).
Definition wants_help (argv : list str) : Prop := In (txt "--help") (tl argv).

Definition first_value (its : list (str * str)) (f v : str) : Prop :=
  exists a b, its = a ++ (f, v) :: b /\ ~ In f (map fst a).
Definition last_value (its : list (str * str)) (f v : str) : Prop :=
  exists a b, its = a ++ (f, v) :: b /\ ~ In f (map fst b).
Definition mentioned (its : list (str * str)) (f : str) : Prop := In f (map fst its).

(** The elements that occurred before, in order. *)
Fixpoint repeated (before : list str) (l : list str) : list str :=
  match l with
  | [] => []
  | f :: l => if in_dec str_dec f before then f :: repeated before l else repeated (f :: before) l
  end.

(** A call of Parse: the flag, the value shown for it afterwards, the help text. *)
Record call := Call { c_flag : str; c_shown : str; c_help : str }.

(** How a bool is shown *)
Definition bool_text (b : bool) : str := if b then txt "true" else txt "false".

(** A parser constructed from a command line, after a list of calls of Parse for any types. *)
Inductive reached (argv : list str) : list call -> parser -> Prop :=
| reached_make p : arg_make argv = Ok p -> reached argv [] p
| reached_parse l p (T : Type) (scan : str -> T * bool * str) (fmt : T -> str) (arg : T) flag help :
    reached argv l p ->
    reached argv (l ++ [Call flag (fmt (fst (parse scan fmt arg flag help p))) help]) (snd (parse scan fmt arg flag help p))
| reached_bool l p (arg : bool) flag help :
    reached argv l p ->
    reached argv (l ++ [Call flag (bool_text (fst (parse_bool arg flag help p))) help]) (snd (parse_bool arg flag help p)).

Definition shown_values (l : list call) : list (str * str) := map (fun c => (c_flag c, c_shown c)) l.
Definition help_texts (l : list call) : list (str * str) := map (fun c => (c_flag c, c_help c)) l.

(** Dictionary order. *)
Inductive str_lt : str -> str -> Prop :=
| lt_nil y b : str_lt [] (y :: b)
| lt_here x y a b : x < y -> str_lt (x :: a) (y :: b)
| lt_later x a b : str_lt a b -> str_lt (x :: a) (x :: b).

(** Text left-aligned in a column of width w. *)
Definition aligned (w : Z) (s : str) : str := s ++ repeat 32 (Z.to_nat (w - zlen s)).
Definition widest (l : list str) (w : Z) : Prop :=
  (l = [] /\ w = 0) \/ (Forall (fun s => zlen s <= w) l /\ Exists (fun s => zlen s = w) l).

(** The readings of a timer after clicks at the given times, and a clock that never goes back. *)
Definition clicked (start : bool) (t0 : Z) (clicks : list Z) : list Z :=
  fold_left (fun ts now => timer_click now ts) clicks (timer_make start t0).
Definition monotone (l : list Z) : Prop := forall i j, 0 <= i <= j -> j < zlen l -> zn 0 l i <= zn 0 l j.
