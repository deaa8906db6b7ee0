(** Characters, decimal integers, and the stream operations used by include/parser.hpp.
    A file is the list of its bytes.  Nothing here is code of /repo; it fixes the meaning of
    [file << i], [file >> i], [getline], [file.write] and [file.read] (ISO C++, "C" locale, as
    implemented by libstdc++). *)

From Coq Require Import ZArith List Bool Ascii String.
From Verif Require Import Base.
Import ListNotations.
Open Scope Z_scope.

Definition byte : Type := Z.
Definition txt (s : string) : list byte := map (fun a => Z.of_nat (nat_of_ascii a)) (list_ascii_of_string s).

(** std::isspace *)
Definition is_space (b : byte) : bool := (b =? 32) || ((9 <=? b) && (b <=? 13)).
Definition is_digit (b : byte) : bool := (48 <=? b) && (b <=? 57).
Definition SP : byte := 32.
Definition NL : byte := 10.
Definition MINUS : byte := 45.
Definition PLUS : byte := 43.
Definition DOT : byte := 46.

(* ---------------------------------------------------------------- integers *)

(** Decimal digits of a natural number, most significant first. *)
Fixpoint dec_go (fuel : nat) (n : Z) (acc : list byte) : list byte :=
  match fuel with
  | O => acc
  | Datatypes.S k =>
      let acc := (48 + n mod 10) :: acc in
      if n <? 10 then acc else dec_go k (n / 10) acc
  end.
Definition dec (n : Z) : list byte := dec_go (Datatypes.S (Z.to_nat (Z.log2 n))) n [].

(** operator<<(std::ostream&, int) *)
Definition fmt_int (n : Z) : list byte := if n <? 0 then MINUS :: dec (- n) else dec n.

(** The longest prefix of bytes satisfying p, and the rest. *)
Fixpoint span (p : byte -> bool) (l : list byte) : list byte * list byte :=
  match l with
  | [] => ([], [])
  | b :: l' => if p b then let (a, r) := span p l' in (b :: a, r) else ([], l)
  end.
Definition dec_value (ds : list byte) : Z := fold_left (fun a d => 10 * a + (d - 48)) ds 0.
Definition skip_ws (l : list byte) : list byte := snd (span is_space l).

Definition scan_sign (l : list byte) : bool * list byte :=
  match l with
  | b :: l' => if b =? MINUS then (true, l') else if b =? PLUS then (false, l') else (false, l)
  | [] => (false, l)
  end.

Definition int_min : Z := - 2 ^ 31.
Definition int_max : Z := 2 ^ 31 - 1.
Definition size_max : Z := 2 ^ 64 - 1.

(** What num_get makes of the characters after the white space: the value assigned, whether it
    succeeded, the characters left.  A number out of range is clamped and fails; no digits give 0
    and fail. *)
Definition scan_int (l : list byte) : Z * bool * list byte :=
  let (neg, l) := scan_sign l in
  let (ds, r) := span is_digit l in
  match ds with
  | [] => (0, false, r)
  | _ => let n := if neg then - dec_value ds else dec_value ds in
         if n <? int_min then (int_min, false, r)
         else if int_max <? n then (int_max, false, r)
         else (n, true, r)
  end.

(** For size_t a minus sign is accepted and the value reduced modulo 2^64. *)
Definition scan_size (l : list byte) : Z * bool * list byte :=
  let (neg, l) := scan_sign l in
  let (ds, r) := span is_digit l in
  match ds with
  | [] => (0, false, r)
  | _ => let n := dec_value ds in
         if size_max <? n then (size_max, false, r)
         else (if neg then (- n) mod 2 ^ 64 else n, true, r)
  end.

(* ---------------------------------------------------------------- input streams *)

(** The characters not read yet, and the state: true unless failbit is set.  eofbit is not kept:
    an operation at the end of the characters fails by itself. *)
Record istream : Type := IS { i_rest : list byte; i_ok : bool }.

(** s >> x: the value assigned to x (None: x is left alone) and the new state. *)
Definition extract {X : Type} (scan : list byte -> X * bool * list byte) (s : istream) : option X * istream :=
  if i_ok s then
    match skip_ws (i_rest s) with
    | [] => (None, IS [] false)
    | l => let '(v, ok, r) := scan l in (Some v, IS r ok)
    end
  else (None, s).

(** s >> x used as a condition: the value if the stream is still good. *)
Definition extract_ok {X : Type} (scan : list byte -> X * bool * list byte) (s : istream) : option X * istream :=
  let (v, s) := extract scan s in if i_ok s then (v, s) else (None, s).

(** s >> x >> y, and s >> x >> y >> z, as conditions *)
Definition extract2 {X Y : Type} (sx : list byte -> X * bool * list byte) (sy : list byte -> Y * bool * list byte)
    (s : istream) : option (X * Y) * istream :=
  match extract_ok sx s with
  | (Some x, s) => match extract_ok sy s with
                   | (Some y, s) => (Some (x, y), s)
                   | (None, s) => (None, s)
                   end
  | (None, s) => (None, s)
  end.
Definition extract3 {X Y U : Type} (sx : list byte -> X * bool * list byte) (sy : list byte -> Y * bool * list byte)
    (su : list byte -> U * bool * list byte) (s : istream) : option (X * Y * U) * istream :=
  match extract2 sx sy s with
  | (Some (x, y), s) => match extract_ok su s with
                        | (Some u, s) => (Some (x, y, u), s)
                        | (None, s) => (None, s)
                        end
  | (None, s) => (None, s)
  end.

(** std::getline: None when the stream failed. *)
Definition getline (s : istream) : option (list byte) * istream :=
  if i_ok s then
    match i_rest s with
    | [] => (None, IS [] false)
    | l => let (a, r) := span (fun b => negb (b =? NL)) l in
           (Some a, IS (match r with [] => [] | _ :: r' => r' end) true)
    end
  else (None, s).

(** while (read) body.  The fuel only makes the definition structural: every pass consumes a
    character, and the readers pass the length of the file plus one (TextProofs, while_fuel). *)
Fixpoint while_read {X St : Type} (fuel : nat) (rd : istream -> option X * istream)
    (body : X -> St -> res St) (s : istream) (st : St) : res St :=
  match fuel with
  | O => Fail FUB
  | Datatypes.S k =>
      match rd s with
      | (Some x, s') => st' <- body x st ;; while_read k rd body s' st'
      | (None, _) => Ok st
      end
  end.
Definition fuel_of (s : istream) : nat := Datatypes.S (List.length (i_rest s)).

(** std::string::find(pat) != npos *)
Fixpoint starts_with (pat l : list byte) : bool :=
  match pat, l with
  | [], _ => true
  | p :: pat', b :: l' => (p =? b) && starts_with pat' l'
  | _ :: _, [] => false
  end.
Fixpoint contains (pat l : list byte) : bool :=
  starts_with pat l || match l with [] => false | _ :: l' => contains pat l' end.

(* ---------------------------------------------------------------- bytes in memory *)

(** The n bytes of an unsigned number, least significant first (x86), and back. *)
Fixpoint le_bytes (n : nat) (z : Z) : list byte :=
  match n with O => [] | Datatypes.S k => (z mod 256) :: le_bytes k (z / 256) end.
Fixpoint le_value (l : list byte) : Z :=
  match l with [] => 0 | b :: l' => b + 256 * le_value l' end.

(** size_t (8 bytes), int (4 bytes, two's complement) *)
Definition enc_size (n : Z) : list byte := le_bytes 8 n.
Definition dec_size (l : list byte) : Z := le_value l.
Definition enc_int (n : Z) : list byte := le_bytes 4 (n mod 2 ^ 32).
Definition to_int (z : Z) : Z := (z + 2 ^ 31) mod 2 ^ 32 - 2 ^ 31.
Definition dec_int (l : list byte) : Z := to_int (le_value l).

(** file.read(p, n) into memory that holds [buf] (n bytes): the bytes available replace the first
    ones, and the stream fails if there are fewer than n. *)
Definition read_bytes (buf : list byte) (s : istream) : list byte * istream :=
  if i_ok s then
    let n := List.length buf in
    let got := firstn n (i_rest s) in
    (got ++ skipn (List.length got) buf, IS (skipn n (i_rest s)) (Nat.leb n (List.length (i_rest s))))
  else (buf, s).

(** An array of objects of w bytes each, as bytes; and back. *)
Fixpoint chunks {X : Type} (n w : nat) (f : list byte -> X) (l : list byte) : list X :=
  match n with
  | O => []
  | Datatypes.S k => f (firstn w l) :: chunks k w f (skipn w l)
  end.
