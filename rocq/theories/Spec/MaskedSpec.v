(** Vocabulary for parsing a stream with an exception mask. *)
From Verif.Model Require Import Base Log PluralForms Dictionary IConv Stream PoParser Masked.
From Verif.Spec Require Import ParserSpec.
Local Open Scope list_scope.

(** POParser::parse(fn, i, d), where i has the exception mask mk, ends with result r *)
Definition masked_parses_to (mk : mask) (cf : config) (fn : bytes) (i : istream) (d : dictionary) (r : parse_result) : Prop :=
  pr_outcome r <> OutOfFuel /\
  exists N, forall n, N <= n -> x_po_parse mk (with_fuel cf n) fn i d = r.

(** ended by the stream's exception *)
Definition io_thrown (r : parse_result) : Prop := pr_outcome r = Exn (ExRuntime io_failure).

Fixpoint logged (tr : list event) : list log_stmt :=
  match tr with [] => [] | EvLog l :: tr' => l :: logged tr' | _ :: tr' => logged tr' end.
(** r' has done the first part of what r does, and nothing else: its dictionary calls and messages
    are the first ones of r, and its dictionary lacks only the calls that r makes after them *)
Definition cut_short (r' r : parse_result) : Prop :=
  exists calls ls, pr_calls r = pr_calls r' ++ calls /\ pr_dict r = fold_left apply_call calls (pr_dict r') /\
                   logged (pr_trace r) = logged (pr_trace r') ++ ls.

Definition no_mask : mask := {| mk_eof := false; mk_fail := false; mk_bad := false |}.
Definition badbit : mask := {| mk_eof := false; mk_fail := false; mk_bad := true |}.
Definition failbit : mask := {| mk_eof := false; mk_fail := true; mk_bad := false |}.
Definition eofbit : mask := {| mk_eof := true; mk_fail := false; mk_bad := false |}.
