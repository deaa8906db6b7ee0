(** Model of include/argparser.hpp, src/argparser.cpp, include/timer.hpp and src/timer.cpp. *)

From Coq Require Import ZArith List Bool Ascii String.
From Verif Require Import Base Scalar Text.
Import ListNotations.
Open Scope Z_scope.

Definition str : Type := list byte.

Fixpoint str_eqb (a b : str) : bool :=
  match a, b with
  | [], [] => true
  | x :: a, y :: b => (x =? y) && str_eqb a b
  | _, _ => false
  end.
(** std::string::operator< (bytes compared as unsigned char) *)
Fixpoint str_ltb (a b : str) : bool :=
  match a, b with
  | _, [] => false
  | [], _ :: _ => true
  | x :: a, y :: b => if x <? y then true else if y <? x then false else str_ltb a b
  end.

(** std::map<std::string, std::string>: its elements in iteration order. *)
Definition smap : Type := list (str * str).
(** map::find *)
Fixpoint m_find (k : str) (m : smap) : option str :=
  match m with
  | [] => None
  | (k', v) :: m => if str_eqb k k' then Some v else m_find k m
  end.
(** m[k] = v *)
Fixpoint m_put (k v : str) (m : smap) : smap :=
  match m with
  | [] => [(k, v)]
  | (k', v') :: m' => if str_eqb k k' then (k, v) :: m'
                      else if str_ltb k k' then (k, v) :: m
                      else (k', v') :: m_put k v m'
  end.

(** include/argparser.hpp:62-67 *)
Record parser := Parser {
  p_help : smap;
  p_errors : list str;
  p_values : smap;
  p_seen : smap;
  p_need_help : bool
}.

(** The default constructor, include/argparser.hpp:25. *)
Definition arg_empty : parser := Parser [] [] [] [] false.

(** src/argparser.cpp:6-11 IsFlag: arg.compare(0, 2, "--") == 0 *)
Definition is_flag (a : str) : bool := str_eqb (firstn 2 a) (txt "--").

(** src/argparser.cpp:39-46 and 53-60: values_[flag] = v unless the flag is known. *)
Definition enter (f v : str) (p : parser) : parser :=
  match m_find f (p_values p) with
  | None => Parser (p_help p) (p_errors p) (m_put f v (p_values p)) (p_seen p) (p_need_help p)
  | Some _ => Parser (p_help p) (p_errors p ++ [f ++ txt " entered multiple times!"]) (p_values p) (p_seen p) (p_need_help p)
  end.

(** src/argparser.cpp:33-34 *)
Definition check_entry (a : str) : res unit :=
  match a with
  | [] => Fail FAssert
  | c :: _ => assert_ (c =? MINUS)
  end.

(** src/argparser.cpp:31-64.  [fuel]: the number of entries left bounds the number of steps. *)
Fixpoint arg_loop (fuel : nat) (es : list str) (p : parser) : res parser :=
  match fuel with
  | O => Ok p
  | Datatypes.S fuel =>
      match es with
      | [] => Ok p
      | a :: r =>
          check_entry a ;;;
          match r with
          | v :: r' => if negb (is_flag v) then arg_loop fuel r' (enter a v p)
                       else arg_loop fuel r (enter a [] p)
          | [] => arg_loop fuel r (enter a [] p)
          end
      end
  end.

(** src/argparser.cpp:13-65.  [argv] holds argc strings, the program name first; arguments are
    C strings, so they hold no zero byte (no theorem needs this). *)
Definition arg_make (argv : list str) : res parser :=
  ' (es, help) <- foldM (fun (st : list str * bool) (a : str) =>
      let (es, help) := st in
      if str_eqb (txt "--help") a then Ok (es, true)
      else match a with [] => Fail FAssert | _ => Ok (es ++ [a], help) end) (tl argv) ([], false) ;;
  arg_loop (List.length es) es (Parser [] [] [] [] help).

(* ---------------------------------------------------------------- Parse *)

(** [std::stringstream(v) >> arg]: leading white space is skipped; if nothing follows the sentry
    fails and arg keeps its value; otherwise arg gets what the conversion yields, also when it
    fails (0 or the nearest value in range for numbers, since C++11). *)
Definition read_arg {T} (scan : str -> T * bool * str) (v : str) (arg : T) : T :=
  match skip_ws v with
  | [] => arg
  | l => fst (fst (scan l))
  end.
(** operator>>(std::istream&, std::string&): up to white space *)
Definition scan_word (l : str) : str * bool * str :=
  let (w, r) := span (fun b => negb (is_space b)) l in (w, match w with [] => false | _ => true end, r).

(** include/argparser.hpp:83-93 and src/argparser.cpp:132-142 *)
Definition note (flag shown : str) (p : parser) : parser :=
  match m_find flag (p_seen p) with
  | None => Parser (p_help p) (p_errors p) (p_values p) (m_put flag shown (p_seen p)) (p_need_help p)
  | Some _ => Parser (p_help p) (p_errors p ++ [flag ++ txt " requested to be parsed multiple times!"]) (p_values p) (p_seen p) (p_need_help p)
  end.
Definition set_help (flag help : str) (p : parser) : parser :=
  Parser (m_put flag help (p_help p)) (p_errors p) (p_values p) (p_seen p) (p_need_help p).

(** include/argparser.hpp:73-94 Parse<T>; scan and fmt are the stream operators of T.
    Returns the new value of arg and the parser (its members are mutable). *)
Definition parse {T} (scan : str -> T * bool * str) (fmt : T -> str) (arg : T) (flag help : str) (p : parser) : T * parser :=
  let p := set_help flag help p in
  let arg := match m_find flag (p_values p) with Some v => read_arg scan v arg | None => arg end in
  (arg, note flag (fmt arg) p).

(** src/argparser.cpp:122-143 Parse<bool> *)
Definition fmt_bool (b : bool) : str := if b then txt "true" else txt "false".
Definition parse_bool (arg : bool) (flag help : str) (p : parser) : bool * parser :=
  let p := set_help flag help p in
  let arg := match m_find flag (p_values p) with Some _ => negb arg | None => arg end in
  (arg, note flag (fmt_bool arg) p).

(** src/argparser.cpp:145-148 *)
Definition is_good (p : parser) : bool := (zlen (p_errors p) =? 0) && negb (p_need_help p).

(** src/argparser.cpp:67-80 *)
Definition show_errors (p : parser) : str :=
  (if zlen (p_errors p) =? 0 then [] else txt "Parse Errors:" ++ [NL]) ++
  flat_map (fun e => txt "  " ++ e ++ [NL]) (p_errors p).

(** src/argparser.cpp:82-92 *)
Definition show_help (p : parser) : str :=
  txt "Program Help:" ++ [NL] ++
  flat_map (fun o : str * str => txt "  " ++ fst o ++ [SP] ++ snd o ++ [NL]) (p_help p).

(** std::left, std::setw(w) *)
Definition padded (w : Z) (s : str) : str := s ++ repeat SP (Z.to_nat (w - zlen s)).

(** src/argparser.cpp:94-120 *)
Definition show_options (p : parser) : str :=
  let w := fold_left (fun w (o : str * str) => Z.max w (zlen (fst o))) (p_seen p) 0 + 2 in
  let u := fold_left (fun w (o : str * str) => Z.max w (zlen (snd o))) (p_seen p) 0 + 2 in
  txt "Program Options:" ++ [NL] ++
  flat_map (fun o : str * str => txt "  " ++ padded w (fst o) ++ padded u (snd o) ++
      match m_find (fst o) (p_help p) with Some h => h | None => [] end ++ [NL]) (p_seen p).

(* ---------------------------------------------------------------- Timer *)

Section Timer.
Context {S : scalar}.
Local Notation T := (car S).
(** Clock readings are integers (ticks); [seconds] converts a difference of readings to
    duration<double>. *)
Variable seconds : Z -> T.

(** src/timer.cpp:6-12; [now]: the reading of the clock at the call *)
Definition timer_make (start : bool) (now : Z) : list Z := if start then [now] else [].
(** src/timer.cpp:14-17 *)
Definition timer_click (now : Z) (ts : list Z) : list Z := ts ++ [now].
(** src/timer.cpp:19-28 *)
Definition timer_total (ts : list Z) : res T :=
  if zlen ts <? 2 then Ok s0
  else b <- get ts (zlen ts - 1) ;; a <- get ts 0 ;; Ok (seconds (b - a)).
(** src/timer.cpp:30-37 *)
Definition timer_lap (ts : list Z) (i : Z) : res T :=
  assert_ (0 <=? i) ;;;
  assert_ (i <? zlen ts - 1) ;;;
  b <- get ts (i + 1) ;; a <- get ts i ;; Ok (seconds (b - a)).
End Timer.
