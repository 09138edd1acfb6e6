(** Files that fit the parser's integer types. *)
From Verif.Model Require Import Base Log PluralForms Dictionary IConv Stream PoParser Widths.
From Verif.Spec Require Import ParserSpec.
Local Open Scope list_scope.

(** no 2^32 bytes in a row without a newline *)
Definition short_lines (b : bytes) : Prop :=
  forall pre line post, b = pre ++ line ++ post -> ~ In c_lf line -> (Z.of_nat (length line) < 4294967296)%Z.

(** POParser::parse(fn, i, d) with 32-bit integers finishes, with result r (cf. parses_to) *)
Definition w_parses_to (cf : config) (fn : bytes) (i : istream) (d : dictionary) (r : parse_result) : Prop :=
  pr_outcome r <> OutOfFuel /\
  exists N, forall n, N <= n -> w_po_parse (with_fuel cf n) fn i d = r.

(** it overflows the line counter, an int (undefined behaviour) *)
Definition w_overflows (cf : config) (fn : bytes) (i : istream) (d : dictionary) : Prop :=
  exists N, forall n, N <= n -> pr_outcome (w_po_parse (with_fuel cf n) fn i d) = Ub UbRange.
