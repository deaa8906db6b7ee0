(** Properties C51, C52 and C82: command line and timer. *)

From Coq Require Import ZArith List Bool Lia String Sorted Floats.SpecFloat QArith.QArith_base QArith.Qreduction QArith.Qcanon.
From Verif Require Import Base Scalar Spec Text Parser ParserSpec TextProofs Args ArgsSpec ArgsProofs Double DoubleSpec DoubleMore.
Import ListNotations.
Open Scope Z_scope.

(* ---------------------------------------------------------------- C51 *)

(** Every command line reads in exactly one way; construction succeeds iff no argument is empty and
    every word in the place of a flag begins with a dash, and stops the program otherwise. *)
Theorem C51_construction :
  forall (argv : list str), exists its, items (words argv) its /\ (forall its', items (words argv) its' -> its = its') /\
  ((exists p, arg_make argv = Ok p) <-> (~ In [] (tl argv) /\ Forall (fun it => dashed (fst it)) its)) /\
  ((~ exists p, arg_make argv = Ok p) -> arg_make argv = Fail FAssert).
Proof. exact construction. Qed.
Print Assumptions C51_construction.

(** A parser made by ArgParser() is one made from a line without arguments. *)
Theorem C51_default : forall name : str, arg_make [name] = Ok arg_empty.
Proof. reflexivity. Qed.
Print Assumptions C51_default.

(** Parse, at any time, for a flag that is on the line: the variable gets the value of the text
    that follows the first occurrence of the flag. *)
Theorem C51_value_of_first_occurrence :
  forall (argv : list str) (l : list call) (p : parser) (its : list (str * str)), reached argv l p -> items (words argv) its ->
  forall (T : Type) (scan : str -> T * bool * str) (fmt : T -> str) (arg x : T) (f help v w t rest : str),
  first_value its f v -> v = w ++ t ++ rest -> white w -> reads_as scan x t -> ends rest ->
  fst (parse scan fmt arg f help p) = x.
Proof. exact parse_value. Qed.
Print Assumptions C51_value_of_first_occurrence.

(** A flag without a value, or not on the line, leaves the variable untouched. *)
Theorem C51_untouched :
  forall (argv : list str) (l : list call) (p : parser) (its : list (str * str)), reached argv l p -> items (words argv) its ->
  forall (T : Type) (scan : str -> T * bool * str) (fmt : T -> str) (arg : T) (f help : str),
  ~ mentioned its f \/ (exists v, first_value its f v /\ white v) -> fst (parse scan fmt arg f help p) = arg.
Proof. exact parse_untouched. Qed.
Print Assumptions C51_untouched.

(** A bool is toggled iff its flag is on the line. *)
Theorem C51_bool :
  forall (argv : list str) (l : list call) (p : parser) (its : list (str * str)), reached argv l p -> items (words argv) its ->
  forall (arg : bool) (f help : str),
  (mentioned its f -> fst (parse_bool arg f help p) = negb arg) /\ (~ mentioned its f -> fst (parse_bool arg f help p) = arg).
Proof. exact parse_bool_toggles. Qed.
Print Assumptions C51_bool.

(** The types: int, double (17 digits or short), words without white space. *)
Theorem C51_types :
  (forall n, fits_int n -> reads_as scan_int n (fmt_int n)) /\
  (forall p x, 17 <= p <= 40 -> double x -> finite x -> reads_as scan_double x (fmt_double p x)) /\
  (forall w, w <> [] -> Forall (fun b => is_space b = false) w -> reads_as scan_word w w).
Proof. split; [exact int_reads|]. split; [|exact word_reads]. intros p x Hp Hv Hf. exact (finite_keeps p x Hp Hv Hf). Qed.
Print Assumptions C51_types.

(** IsGood after any calls: no --help, no flag twice on the line, no flag asked for twice. *)
Theorem C51_is_good :
  forall (argv : list str) (l : list call) (p : parser) (its : list (str * str)), reached argv l p -> items (words argv) its ->
  (is_good p = true <-> ~ wants_help argv /\ NoDup (map fst its) /\ NoDup (map c_flag l)).
Proof. exact reached_good. Qed.
Print Assumptions C51_is_good.

(** Malformed lines that are not reported: a number that is none (the variable becomes 0), a flag
    nobody asks for, a value of more than one word, a value beginning with two dashes. *)
Theorem C51_malformed_refuted :
  (exists p, arg_make [txt "prog"; txt "--n"; txt "abc"] = Ok p /\
     let r := parse scan_int fmt_int 7 (txt "--n") [] p in fst r = 0 /\ is_good (snd r) = true) /\
  (exists p, arg_make [txt "prog"; txt "--m"; txt "3"] = Ok p /\
     let r := parse scan_int fmt_int 7 (txt "--n") [] p in fst r = 7 /\ is_good (snd r) = true) /\
  (exists p, arg_make [txt "prog"; txt "--file"; txt "my data"] = Ok p /\
     let r := parse scan_word (fun w => w) [] (txt "--file") [] p in fst r = txt "my" /\ is_good (snd r) = true) /\
  (exists p, arg_make [txt "prog"; txt "--x"; txt "--5"] = Ok p /\
     let r := parse scan_int fmt_int 7 (txt "--x") [] p in fst r = 7 /\ is_good (snd r) = true).
Proof.
  split; [|split; [|split]]; eexists; (split; [reflexivity|]); cbv zeta; split; reflexivity.
Qed.
Print Assumptions C51_malformed_refuted.

(** Flags with one dash, which the documentation describes, are taken as values. *)
Theorem C51_one_dash_refuted :
  (exists p, arg_make [txt "prog"; txt "-v"; txt "-n"] = Ok p /\
     fst (parse_bool false (txt "-n") [] p) = false /\ is_good p = true) /\
  arg_make [txt "prog"; txt "-v"; txt "-n"; txt "3"] = Fail FAssert.
Proof. split; [eexists; split; [reflexivity|split; reflexivity]|reflexivity]. Qed.
Print Assumptions C51_one_dash_refuted.

Definition exLine : list str := [txt "prog"; txt "--n"; txt "-12"; txt "--v"; txt "--name"; txt "graph.txt"; txt "--n"; txt "9"].
Definition exItems : list (str * str) := [(txt "--n", txt "-12"); (txt "--v", []); (txt "--name", txt "graph.txt"); (txt "--n", txt "9")].
Example C51_instance :
  items (words exLine) exItems /\ (exists p, reached exLine [] p /\
    let r := parse scan_int fmt_int 7 (txt "--n") [] p in fst r = -12 /\ is_good (snd r) = false) /\
  first_value exItems (txt "--n") (txt "-12") /\ reads_as scan_int (-12) (txt "-12") /\ mentioned exItems (txt "--v") /\ ~ mentioned exItems (txt "--m") /\
  ~ wants_help exLine /\ ~ NoDup (map fst exItems).
Proof.
  split; [|split; [|split; [|split; [|split; [|split; [|split]]]]]].
  - apply items_value; [rewrite <- is_flag_like; discriminate|]. apply items_alone; [exists (txt "name"); reflexivity|].
    apply items_value; [rewrite <- is_flag_like; discriminate|]. apply items_value; [rewrite <- is_flag_like; discriminate|]. constructor.
  - eexists. split; [apply reached_make; reflexivity|]. split; reflexivity.
  - exists [], (tl exItems). split; [reflexivity|]. intros [].
  - apply (int_reads (-12)). split; discriminate.
  - right. left. reflexivity.
  - intros H. cbn in H. intuition discriminate.
  - intros H. cbn in H. intuition discriminate.
  - intros H. inversion H as [|? ? Hn _]. apply Hn. right. right. left. reflexivity.
Qed.

(* ---------------------------------------------------------------- C82 *)

(** ShowOptions prints every flag asked for once, in order, with the value it got at the first call
    and the help text of the last, in aligned columns. *)
Theorem C82_show_options :
  forall (argv : list str) (l : list call) (p : parser), reached argv l p -> exists (rows : list (str * str * str)) (w u : Z),
  StronglySorted (fun a b => str_lt (fst (fst a)) (fst (fst b))) rows /\
  (forall f v h, In (f, v, h) rows <-> first_value (shown_values l) f v /\ last_value (help_texts l) f h) /\
  widest (map (fun r => fst (fst r)) rows) w /\ widest (map (fun r => snd (fst r)) rows) u /\
  show_options p = txt "Program Options:" ++ [NL] ++
    flat_map (fun r => let '(f, v, h) := r in txt "  " ++ aligned (w + 2) f ++ aligned (u + 2) v ++ h ++ [NL]) rows.
Proof. exact show_options_text. Qed.
Print Assumptions C82_show_options.

Theorem C82_show_help :
  forall (argv : list str) (l : list call) (p : parser), reached argv l p -> exists rows : list (str * str),
  StronglySorted (fun a b => str_lt (fst a) (fst b)) rows /\ (forall f h, In (f, h) rows <-> last_value (help_texts l) f h) /\
  show_help p = txt "Program Help:" ++ [NL] ++ flat_map (fun r => txt "  " ++ fst r ++ [SP] ++ snd r ++ [NL]) rows.
Proof. exact show_help_text. Qed.
Print Assumptions C82_show_help.

(** ShowErrors prints one line for every repeated occurrence on the command line, then one for every
    repeated call, in order; nothing if there is none. *)
Theorem C82_show_errors :
  forall (argv : list str) (l : list call) (p : parser) (its : list (str * str)), reached argv l p -> items (words argv) its ->
  let errors := map (fun f => f ++ txt " entered multiple times!") (repeated [] (map fst its)) ++
                map (fun f => f ++ txt " requested to be parsed multiple times!") (repeated [] (map c_flag l)) in
  show_errors p = match errors with [] => [] | _ => txt "Parse Errors:" ++ [NL] ++ flat_map (fun e => txt "  " ++ e ++ [NL]) errors end.
Proof. exact errors_shown. Qed.
Print Assumptions C82_show_errors.

Example C82_instance :
  exists p, reached exLine [Call (txt "--n") (txt "-12") (txt "count"); Call (txt "--debug") (txt "false") (txt "talk")] p /\
  show_options p = txt "Program Options:
  --debug  false  talk
  --n      -12    count
" /\ show_help p = txt "Program Help:
  --debug talk
  --n count
" /\ show_errors p = txt "Parse Errors:
  --n entered multiple times!
".
Proof.
  assert (exists p0, arg_make exLine = Ok p0) as (p0 & E) by (eexists; reflexivity).
  pose proof (reached_make exLine p0 E) as H0. pose proof (reached_parse exLine _ p0 Z scan_int fmt_int 7 (txt "--n") (txt "count") H0) as H1.
  set (p1 := snd (parse scan_int fmt_int 7 (txt "--n") (txt "count") p0)) in *.
  pose proof (reached_bool exLine _ p1 false (txt "--debug") (txt "talk") H1) as H2.
  set (p2 := snd (parse_bool false (txt "--debug") (txt "talk") p1)) in *.
  exists p2. vm_compute in E. injection E as <-. split; [exact H2|]. repeat split; vm_compute; reflexivity.
Qed.

(* ---------------------------------------------------------------- C52 *)

(** In exact arithmetic the laps sum to the total, after any clicks. *)
Theorem C52_laps_sum_to_total_partial :
  forall (S : scalar), ring_laws S -> forall (seconds : Z -> car S),
  seconds 0 = s0 -> (forall a b, seconds (a + b) = sadd (seconds a) (seconds b)) ->
  forall (start : bool) (t0 : Z) (clicks : list Z), let ts := clicked start t0 clicks in
  exists laps total, (forall i, 0 <= i < zlen ts - 1 -> timer_lap seconds ts i = Ok (laps i)) /\
    timer_total seconds ts = Ok total /\ sum_range 0 (zlen ts - 1) laps = total.
Proof. exact (fun S R sec H0 H1 start t0 cl => timer_sum sec R (clicked start t0 cl) H0 H1). Qed.
Print Assumptions C52_laps_sum_to_total_partial.

(** On a clock that does not go back, laps and total are not negative (any arithmetic, doubles
    included); a lap that was not made stops the program. *)
Theorem C52_nonnegative :
  forall (S : scalar) (seconds : Z -> car S), sle (s0 : car S) s0 -> (forall d, 0 <= d -> sle s0 (seconds d)) ->
  forall (start : bool) (t0 : Z) (clicks : list Z), let ts := clicked start t0 clicks in monotone ((if start then [t0] else []) ++ clicks) ->
  (forall i x, timer_lap seconds ts i = Ok x -> sle s0 x) /\ (forall x, timer_total seconds ts = Ok x -> sle s0 x).
Proof.
  intros S sec H0 H1 start t0 cl ts Hm. apply timer_nonneg; [|exact H0|exact H1]. unfold ts. rewrite clicked_all. exact Hm.
Qed.
Print Assumptions C52_nonnegative.
Theorem C52_laps_are_checked :
  forall (S : scalar) (seconds : Z -> car S) (start : bool) (t0 : Z) (clicks : list Z) (i : Z),
  (exists x, timer_lap seconds (clicked start t0 clicks) i = Ok x) <-> 0 <= i < zlen ((if start then [t0] else []) ++ clicks) - 1.
Proof. exact laps_checked. Qed.
Print Assumptions C52_laps_are_checked.

(** In doubles (nanoseconds divided by 10^9) the laps need not sum to the total: 0.1 + 0.2. *)
Definition nanoseconds (n : Z) : spec_float :=
  SFdiv 53 1024 (binary_normalize 53 1024 n 0 false) (binary_normalize 53 1024 1000000000 0 false).
Theorem C52_doubles_refuted :
  exists a b t, timer_lap (S := SFs) nanoseconds (clicked true 0 [100000000; 300000000]) 0 = Ok a /\
    timer_lap (S := SFs) nanoseconds (clicked true 0 [100000000; 300000000]) 1 = Ok b /\
    timer_total (S := SFs) nanoseconds (clicked true 0 [100000000; 300000000]) = Ok t /\ sadd (s := SFs) a b <> t.
Proof.
  exists (nanoseconds 100000000), (nanoseconds 200000000), (nanoseconds 300000000). split; [reflexivity|]. split; [reflexivity|]. split; [reflexivity|].
  vm_compute. discriminate.
Qed.
Print Assumptions C52_doubles_refuted.

Example C52_instance :
  let seconds := fun n => Q2Qc (QArith_base.Qmake n 1000000000) in
  seconds 0 = s0 (s := Qcs) /\ (forall a b, seconds (a + b) = sadd (s := Qcs) (seconds a) (seconds b)) /\ (forall d, 0 <= d -> sle (S := Qcs) s0 (seconds d)) /\
  monotone [5; 10; 10; 17] /\ (exists x, timer_total (S := Qcs) seconds (clicked true 5 [10; 10; 17]) = Ok x /\ x = Q2Qc (QArith_base.Qmake 12 1000000000)).
Proof.
  cbv zeta. split; [apply Qc_is_canon; reflexivity|]. split; [|split; [|split]].
  - intros a b. apply Qc_is_canon. change (sadd (s := Qcs)) with Qcplus. unfold Qcplus, Q2Qc. cbn [this]. rewrite !Qred_correct. unfold Qeq, Qplus. cbn [Qnum Qden]. lia.
  - intros d Hd. unfold sle. cbn [slt Qcs]. destruct (Qclt_le_dec (Q2Qc (QArith_base.Qmake d 1000000000)) (s0 (s := Qcs))) as [H|_]; [exfalso|reflexivity]. unfold Qclt in H. change (s0 (s := Qcs)) with (Q2Qc 0) in H. unfold Q2Qc in H. cbn [this] in H. rewrite !Qred_correct in H. unfold Qlt in H. cbn [Qnum Qden] in H. lia.
  - intros i j Hij Hj. change (zlen [5; 10; 10; 17]) with 4 in Hj.
    assert (i = 0 \/ i = 1 \/ i = 2 \/ i = 3) as Hi by lia. assert (j = 0 \/ j = 1 \/ j = 2 \/ j = 3) as Hj' by lia.
    destruct Hi as [->|[->|[->| ->]]], Hj' as [->|[->|[->| ->]]]; try lia; vm_compute; discriminate.
  - eexists. split; [reflexivity|]. apply Qc_is_canon. reflexivity.
Qed.
