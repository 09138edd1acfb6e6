(** Byte strings, the fragment of <ctype.h> and std::string that the code uses,
    and the outcome monad.

    Modelled library pieces (not in /repo): C "C"-locale ctype, std::string.
    A [std::string] is a list of bytes ([ascii]); sizes are assumed < 2^63
    (std::string::max_size), indices are [nat] except where the code relies on
    size_t wrap-around, where they are [N] modulo 2^64. *)
From Coq Require Export Ascii String.
From Coq Require Export List Bool Arith NArith ZArith Lia.
Export ListNotations.
Local Open Scope list_scope.

Notation byte := ascii (only parsing).
Notation bytes := (list ascii) (only parsing).

(** Byte-string literal. *)
Definition bs (s : string) : bytes := list_ascii_of_string s.

Definition code (c : byte) : N := N_of_ascii c.
Definition chr (n : N) : byte := ascii_of_N n.

Definition byte_eqb (a b : byte) : bool := Ascii.eqb a b.

Fixpoint bytes_eqb (a b : bytes) : bool :=
  match a, b with
  | [], [] => true
  | x :: a', y :: b' => byte_eqb x y && bytes_eqb a' b'
  | _, _ => false
  end.

(** std::vector<std::string>::operator== *)
Fixpoint strs_eqb (a b : list bytes) : bool :=
  match a, b with
  | [], [] => true
  | x :: a', y :: b' => bytes_eqb x y && strs_eqb a' b'
  | _, _ => false
  end.

Definition is_nil {A} (l : list A) : bool := match l with [] => true | _ => false end.

(* frequently used bytes *)
Definition c_nul : byte := chr 0.
Definition c_lf : byte := chr 10.
Definition c_cr : byte := chr 13.
Definition c_dq : byte := chr 34.   (* double quote *)
Definition c_bsl : byte := chr 92.  (* backslash *)
Definition c_hash : byte := chr 35. (* # *)
Definition c_sp : byte := chr 32.
Definition c_comma : byte := chr 44.
Definition c_rbr : byte := chr 93.  (* ] *)
Definition c_us : byte := chr 95.   (* _ *)
Definition c_dot : byte := chr 46.
Definition c_at : byte := chr 64.

(** ctype.h in the "C" locale, on unsigned char values; bytes >= 0x80 belong to
    no class and are unchanged by case conversion. *)
Definition isspace (c : byte) : bool :=
  let n := code c in ((n =? 32) || ((9 <=? n) && (n <=? 13)))%N.
Definition isdigit (c : byte) : bool :=
  let n := code c in ((48 <=? n) && (n <=? 57))%N.
Definition isupper (c : byte) : bool :=
  let n := code c in ((65 <=? n) && (n <=? 90))%N.
Definition islower (c : byte) : bool :=
  let n := code c in ((97 <=? n) && (n <=? 122))%N.
Definition isalpha (c : byte) : bool := isupper c || islower c.
Definition toupper (c : byte) : byte := if islower c then chr (code c - 32) else c.
Definition tolower (c : byte) : byte := if isupper c then chr (code c + 32) else c.

(** A byte that is negative as a signed char: passing it to a ctype function is
    undefined behaviour by the C standard. *)
Definition hi (c : byte) : bool := (128 <=? code c)%N.

(** has_prefix / compare(0, n, str) == 0: po_parser.cpp:228-234, 327 *)
Definition starts_with (p s : bytes) : bool := bytes_eqb (firstn (length p) s) p.

(** std::string::find(char): None is npos. *)
Fixpoint find_char (c : byte) (s : bytes) : option nat :=
  match s with
  | [] => None
  | x :: s' => if byte_eqb x c then Some 0
               else match find_char c s' with Some i => Some (S i) | None => None end
  end.

(** std::string::find(needle) != npos *)
Fixpoint contains (needle s : bytes) : bool :=
  starts_with needle s ||
  match s with [] => false | _ :: s' => contains needle s' end.

(** size_t arithmetic *)
Definition size_t_mod : N := (2 ^ 64)%N.
Definition npos : N := (size_t_mod - 1)%N.
Definition sub64 (a b : N) : N := ((a + size_t_mod - b) mod size_t_mod)%N.
Definition size (s : bytes) : N := N.of_nat (length s).
Definition of_find (o : option nat) : N := match o with Some i => N.of_nat i | None => npos end.

(** std::string::substr(pos, count); [None] is the std::out_of_range exception. *)
Definition substr (s : bytes) (pos count : N) : option bytes :=
  if (size s <? pos)%N then None
  else Some (firstn (N.to_nat (N.min count (size s - pos))) (skipn (N.to_nat pos) s)).

(** c_str() read back as a C string: stops at the first NUL. *)
Fixpoint c_str (s : bytes) : bytes :=
  match s with
  | [] => []
  | x :: s' => if byte_eqb x c_nul then [] else x :: c_str s'
  end.

(** Decimal rendering of an int by operator<< (only used for log messages). *)
Fixpoint dec_N_aux (fuel : nat) (n : N) (acc : bytes) : bytes :=
  match fuel with
  | O => acc
  | S f => let acc' := chr (48 + n mod 10) :: acc in
           if (n / 10 =? 0)%N then acc' else dec_N_aux f (n / 10) acc'
  end.
Definition dec_N (n : N) : bytes := dec_N_aux (S (N.to_nat (N.size n))) n [].
Definition dec_Z (z : Z) : bytes :=
  if (z <? 0)%Z then chr 45 :: dec_N (Z.to_N (- z)) else dec_N (Z.to_N z).

(** Association lists standing for std::unordered_map with string keys. Insertion
    order is kept; nothing observable except [foreach] depends on it, and those
    theorems are stated up to permutation. *)
Fixpoint assoc {V} (k : bytes) (m : list (bytes * V)) : option V :=
  match m with
  | [] => None
  | (k', v) :: m' => if bytes_eqb k k' then Some v else assoc k m'
  end.

Fixpoint assoc_set {V} (k : bytes) (v : V) (m : list (bytes * V)) : list (bytes * V) :=
  match m with
  | [] => [(k, v)]
  | (k', v') :: m' => if bytes_eqb k k' then (k', v) :: m' else (k', v') :: assoc_set k v m'
  end.

(** C++ exceptions that occur in the code. *)
Inductive exn :=
| ExPo                          (* POParserError, po_parser.cpp:47 *)
| ExRuntime (what : bytes)      (* std::runtime_error, iconv.cpp:82,88 *)
| ExOutOfRange                  (* std::out_of_range from std::string::substr *)
| ExFilesystem (path : bytes).  (* std::filesystem::filesystem_error from directory_iterator *)

Inductive ub :=
| UbIndex        (* operator[] beyond size() *)
| UbCtype        (* ctype function called with a negative char *)
| UbPointer      (* null or dangling Dictionary* dereferenced *)
| UbIconv        (* iconv on an invalid descriptor *)
| UbRange.       (* atoi of a number that is not an int *)

Inductive outcome (A : Type) :=
| Ret (a : A)
| Exn (e : exn)
| Ub (u : ub)
| AssertFail
| OutOfFuel.
Arguments Ret {A} a. Arguments Exn {A} e. Arguments Ub {A} u.
Arguments AssertFail {A}. Arguments OutOfFuel {A}.

Definition omap {A B} (f : A -> B) (o : outcome A) : outcome B :=
  match o with
  | Ret a => Ret (f a) | Exn e => Exn e | Ub u => Ub u
  | AssertFail => AssertFail | OutOfFuel => OutOfFuel
  end.

(** outcome without state *)
Definition obind {A B} (o : outcome A) (f : A -> outcome B) : outcome B :=
  match o with
  | Ret a => f a | Exn e => Exn e | Ub u => Ub u
  | AssertFail => AssertFail | OutOfFuel => OutOfFuel
  end.

(** State monad with outcomes: the state survives exceptions. *)
Definition M (S A : Type) : Type := S -> outcome A * S.

Definition mret {S A} (a : A) : M S A := fun s => (Ret a, s).
Definition mfail {S A} (o : outcome False) : M S A :=
  fun s => (match o with
            | Ret f => match f with end
            | Exn e => Exn e | Ub u => Ub u
            | AssertFail => AssertFail | OutOfFuel => OutOfFuel
            end, s).
Definition mbind {S A B} (m : M S A) (f : A -> M S B) : M S B :=
  fun s => match m s with
           | (Ret a, s') => f a s'
           | (Exn e, s') => (Exn e, s')
           | (Ub u, s') => (Ub u, s')
           | (AssertFail, s') => (AssertFail, s')
           | (OutOfFuel, s') => (OutOfFuel, s')
           end.
Definition mget {S A} (f : S -> A) : M S A := fun s => (Ret (f s), s).
Definition mmod {S} (f : S -> S) : M S unit := fun s => (Ret tt, f s).
Definition mlift {S A} (o : outcome A) : M S A := fun s => (o, s).

Declare Scope mon_scope.
Delimit Scope mon_scope with mon.
Notation "x <- m ;; k" := (mbind m (fun x => k))
  (at level 61, m at next level, right associativity) : mon_scope.
Notation "m ;; k" := (mbind m (fun _ => k))
  (at level 61, right associativity) : mon_scope.
