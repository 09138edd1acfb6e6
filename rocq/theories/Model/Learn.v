(** Log callbacks that call add_translation on the very dictionary whose member function is logging
    (dictionary.cpp:80-242; the callback runs in ~Log(), log.cpp:59-62, at the end of each log
    statement). As in Enumerate.v, the unordered_maps keep their order while nothing is inserted; an
    insertion puts the new key behind or ahead of an iterator, or rehashes the map, which makes the
    iterator invalid; references to elements stay valid.
    Simplifications: the dictionary has no fallback; callbacks do not look up messages (for that see
    Nested.v), set callbacks or throw (Callbacks.v); the calls one invocation makes are decided when it
    begins, from the text, the state X of the program and the dictionary. *)
From Verif.Model Require Import Base Log PluralForms Dictionary Enumerate.
Local Open Scope list_scope.

(** a lookup, dictionary.hpp:63-82; without context or in one *)
Inductive question :=
| Singular (ctxt : option bytes) (msgid : bytes)
| Plural (ctxt : option bytes) (msgid msgid_plural : bytes) (num : Z).

(** the program's state, the dictionary; the map in which translate_plural is iterating over the
    candidates (dictionary.cpp:107), if it is: the keys ahead, is the iterator valid; the number of
    insertions into that map so far *)
Record busy (X : Type) := {
  b_x : X; b_dict : dictionary; b_at : option (option bytes); b_left : list bytes; b_valid : bool; b_n : nat }.
Arguments b_x {X}. Arguments b_dict {X}. Arguments b_at {X}. Arguments b_left {X}. Arguments b_valid {X}. Arguments b_n {X}.

(** entries, or ctxt_entries[c] *)
Definition map_of (d : dictionary) (c : option bytes) : entries :=
  match c with None => d_entries d | Some c => ctxt_or_new (d_ctxt d) c end.
Definition same_map (a b : option bytes) : bool :=
  match a, b with None, None => true | Some a, Some b => bytes_eqb a b | _, _ => false end.

Section Learn.
  Variable X : Type.
  Variable place : nat -> placing.
  Variable arrange : nat -> list bytes -> list bytes.
  (** the callback of each level, if it is set: a text, the program's state and the dictionary as it
      is to the calls of add_translation it makes *)
  Variable func : level -> option (bytes -> X -> dictionary -> X * list add_op).
  Local Notation busy := (busy X).

  Definition with_x (s : busy) (x : X) : busy :=
    {| b_x := x; b_dict := b_dict s; b_at := b_at s; b_left := b_left s; b_valid := b_valid s; b_n := b_n s |}.
  (** the insertions and the assignment of one add_translation *)
  Definition store (s : busy) (op : add_op) : busy :=
    let d := fst (add_translation (b_dict s) op) in
    let plain := {| b_x := b_x s; b_dict := d; b_at := b_at s; b_left := b_left s; b_valid := b_valid s; b_n := b_n s |} in
    match b_at s with
    | Some c =>
        if same_map c (fst (target op)) && missing (snd (target op)) (map_of (b_dict s) c)
        then let (l, ok) := inserted place (snd (target op)) (b_n s) (b_left s) in
             {| b_x := b_x s; b_dict := d; b_at := b_at s; b_left := l; b_valid := b_valid s && ok; b_n := S (b_n s) |}
        else plain
    | None => plain
    end.
  (** the forms the call finds at its message: entries[msgid] (an empty vector if it is new) *)
  Definition found_forms (d : dictionary) (op : add_op) : list bytes :=
    entry_or_new (map_of d (fst (target op))) (snd (target op)).
  Fixpoint each {A} (f : A -> busy -> outcome busy) (l : list A) (s : busy) : outcome busy :=
    match l with [] => Ret s | a :: l' => obind (f a s) (each f l') end.
  (** add_translation, dictionary.cpp:174-242: the collision, if there is one, is logged first; then the
      forms are assigned: msgstrs to the whole vector, msgstr to vec[0] (undefined if it is empty by now).
      [call] executes a log statement. *)
  Definition add_live (call : log_stmt -> busy -> outcome busy) (op : add_op) (s : busy) : outcome busy :=
    match snd (add_translation (b_dict s) op) with
    | [] => Ret (store s op)
    | ls =>
        obind (each call ls s) (fun s' =>
          match op with
          | AddSingular _ _ _ => if is_nil (found_forms (b_dict s') op) then Ub UbIndex else Ret (store s' op)
          | AddPlural _ _ _ _ => Ret (store s' op)
          end)
    end.
  (** a log statement; at most [n] callbacks may be running inside each other (the stack is finite) *)
  Fixpoint say (n : nat) (l : log_stmt) (s : busy) : outcome busy :=
    match func (lg_level l) with
    | None => Ret s
    | Some f =>
        match n with
        | O => OutOfFuel
        | S n' =>
            let (x, ops) := f (lg_text l) (b_x s) (b_dict s) in
            each (add_live (say n')) ops (with_x s x)
        end
    end.
  Definition add_call (n : nat) (op : add_op) (s : busy) : outcome busy := add_live (say n) op s.

  (** for (it = dict.begin(); it != dict.end(); ++it) log_info << it->first, dictionary.cpp:107-108 *)
  Fixpoint candidates (n m : nat) (s : busy) : outcome busy :=
    match m with
    | O => OutOfFuel
    | S m' =>
        match b_left s with
        | [] => Ret {| b_x := b_x s; b_dict := b_dict s; b_at := None; b_left := []; b_valid := true; b_n := b_n s |}
        | k :: rest =>
            obind (say n (log_info (bs "'" ++ k ++ bs "'"))
                     {| b_x := b_x s; b_dict := b_dict s; b_at := b_at s; b_left := rest; b_valid := b_valid s; b_n := b_n s |})
              (fun s' => if b_valid s' then candidates n m' s' else Ub UbPointer)
        end
    end.
  Definition begin_at (c : option bytes) (s : busy) : busy :=
    {| b_x := b_x s; b_dict := b_dict s; b_at := Some c; b_left := arrange (b_n s) (List.map fst (map_of (b_dict s) c));
       b_valid := true; b_n := b_n s |}.
  (** translate_plural(dict, ...), dictionary.cpp:80-115 *)
  Definition plural_in (n m : nat) (c : option bytes) (i pl : bytes) (num : Z) (s : busy) : outcome (bytes * busy) :=
    match assoc i (map_of (b_dict s) c) with
    | Some _ =>
        let (a, ls) := translate_plural_in (b_dict s) (map_of (b_dict s) c) i pl num in
        omap (pair a) (each (say n) ls s)
    | None =>
        obind (say n (log_info (bs "Couldn't translate: " ++ i)) s) (fun s1 =>
        obind (say n (log_info (bs "Candidates: ")) s1) (fun s2 =>
        omap (pair (english i pl num)) (candidates n m (begin_at c s2))))
    end.
  (** translate(dict, msgid), dictionary.cpp:124-138 *)
  Definition singular_in (n : nat) (c : option bytes) (i : bytes) (s : busy) : outcome (bytes * busy) :=
    match assoc i (map_of (b_dict s) c) with
    | Some (v0 :: _) => Ret (v0, s)
    | _ => omap (pair i) (say n (log_info (bs "Couldn't translate: " ++ i)) s)
    end.
  Definition has_map (d : dictionary) (c : option bytes) : bool :=
    match c with None => true | Some c => negb (missing c (d_ctxt d)) end.
  (** the four lookups, dictionary.cpp:74-78, 117-122, 140-172 *)
  Definition ask (n m : nat) (q : question) (s : busy) : outcome (bytes * busy) :=
    match q with
    | Singular c i =>
        if has_map (b_dict s) c then singular_in n c i s
        else omap (pair i) (say n (log_info (bs "Couldn't translate: " ++ i)) s)
    | Plural c i pl num =>
        if has_map (b_dict s) c then plural_in n m c i pl num s
        else omap (pair (if negb (num =? 1)%Z then pl else i)) (say n (log_info (bs "Couldn't translate: " ++ i)) s)
    end.
  (** between calls *)
  Definition idle (x : X) (d : dictionary) : busy :=
    {| b_x := x; b_dict := d; b_at := None; b_left := []; b_valid := true; b_n := 0 |}.
End Learn.
