(** The characters and numbers the other specifications talk about, spelled out. *)
From Coq Require Import NArith ZArith.
From Verif.Model Require Import Base.
Local Open Scope list_scope.

(** The C locale's white space: tab, line feed, vertical tab, form feed, carriage return, space. *)
Definition white_chars : bytes := [chr 9; chr 10; chr 11; chr 12; chr 13; chr 32].
Definition digit_chars : bytes := bs "0123456789".
Definition lower_chars : bytes := bs "abcdefghijklmnopqrstuvwxyz".
Definition upper_chars : bytes := bs "ABCDEFGHIJKLMNOPQRSTUVWXYZ".

(** [a] is the [i]-th small letter and [b] the [i]-th capital one *)
Definition same_letter (a b : byte) : Prop :=
  exists i, nth_error lower_chars i = Some a /\ nth_error upper_chars i = Some b.

(** [written n w]: [w] is the usual decimal notation of [n], without needless zeros. *)
Inductive written : N -> bytes -> Prop :=
| written_digit d c : nth_error digit_chars d = Some c -> written (N.of_nat d) [c]
| written_more n w d c : n <> 0%N -> written n w -> nth_error digit_chars d = Some c ->
    written (10 * n + N.of_nat d)%N (w ++ [c]).
