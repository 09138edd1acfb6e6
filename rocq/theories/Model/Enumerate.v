(** Dictionary::foreach and foreach_ctxt (dictionary.hpp:97-107, 115-128) with a function that
    itself calls add_translation on the dictionary being enumerated.
    entries and ctxt_entries are unordered_maps: [Entries] and [CtxtEntries], dictionary.hpp:37-41.
    Assumed of the standard library: the order of iteration is arbitrary ([arrange]), but does not
    change as long as nothing is inserted; inserting a new key puts it behind or ahead of an
    iterator into the map, or rehashes the map, which makes the iterator invalid ([place]);
    references to elements stay valid. Using an invalid iterator is undefined. *)
From Verif.Model Require Import Base Log PluralForms Dictionary.
Local Open Scope list_scope.

Inductive placing := Behind | Ahead (n : nat) | Rehash.
Definition missing {V} (k : bytes) (m : list (bytes * V)) : bool :=
  match assoc k m with None => true | Some _ => false end.

(** the dictionary; the map [w_at] being iterated over: entries, or the entries of a context; the
    msgids and the contexts ahead of the iterators; are the iterators valid; the number of insertions
    into the maps being iterated over, so far *)
Record walk := {
  w_dict : dictionary; w_at : option bytes; w_msgs : list bytes; w_ctxts : list bytes;
  w_valid : bool; w_n : nat }.

Section Enumerate.
  Variable X : Type.                             (* the state of the function object *)
  Variable place : nat -> placing.
  Variable arrange : nat -> list bytes -> list bytes.
  (** what the function does, called with a context (for foreach_ctxt), a msgid and the forms: the
      calls of add_translation it makes may depend on its state and on the dictionary.
      Simplification: it does not assign to the forms (for that see Owner.v), nor enumerate. *)
  Variable func : X -> option bytes * bytes -> list bytes -> dictionary -> X * list add_op.

  Definition inserted (k : bytes) (n : nat) (l : list bytes) : list bytes * bool :=
    match place n with
    | Behind => (l, true)
    | Ahead i => (firstn i l ++ k :: skipn i l, true)
    | Rehash => (l, false)
    end.
  (** a key is inserted into the map [w_at], or into ctxt_entries *)
  Definition insert_msg (w : walk) (d : dictionary) (k : bytes) : walk :=
    let (l, ok) := inserted k (w_n w) (w_msgs w) in
    {| w_dict := d; w_at := w_at w; w_msgs := l; w_ctxts := w_ctxts w; w_valid := w_valid w && ok; w_n := S (w_n w) |}.
  Definition insert_ctxt (w : walk) (d : dictionary) (c : bytes) : walk :=
    let (l, ok) := inserted c (w_n w) (w_ctxts w) in
    {| w_dict := d; w_at := w_at w; w_msgs := w_msgs w; w_ctxts := l; w_valid := w_valid w && ok; w_n := S (w_n w) |}.
  Definition insert_elsewhere (w : walk) (d : dictionary) : walk :=
    {| w_dict := d; w_at := w_at w; w_msgs := w_msgs w; w_ctxts := w_ctxts w; w_valid := w_valid w; w_n := w_n w |}.
  Definition target (op : add_op) : option bytes * bytes :=
    match op with AddSingular c i _ => (c, i) | AddPlural c i _ _ => (c, i) end.
  (** add_translation, dictionary.cpp:174-242: entries[msgid], or ctxt_entries[msgctxt][msgid] *)
  Definition walk_add (w : walk) (op : add_op) : walk :=
    let d := fst (add_translation (w_dict w) op) in
    match w_at w, target op with
    | None, (None, i) => if missing i (d_entries (w_dict w)) then insert_msg w d i else insert_elsewhere w d
    | Some c, (Some c', i) =>
        match assoc c' (d_ctxt (w_dict w)) with
        | None => insert_ctxt w d c'
        | Some es => if bytes_eqb c c' && missing i es then insert_msg w d i else insert_elsewhere w d
        end
    | _, _ => insert_elsewhere w d
    end.

  Definition forms_at (d : dictionary) (c : option bytes) (i : bytes) : list bytes :=
    match c with None => entry_or_new (d_entries d) i | Some c => entry_or_new (ctxt_or_new (d_ctxt d) c) i end.
  (** one call of the function: the key, the forms it was given, the calls it made *)
  Definition visit : Type := (option bytes * bytes) * list bytes * list add_op.

  (** the loops; [None]: not yet ended. After a call of the function the iterators are used
      (++j, i->second.end(), ++i). *)
  Fixpoint loop (fuel : nat) (x : X) (w : walk) (seen : list visit) : option (outcome X * list visit * dictionary) :=
    match fuel with
    | O => None
    | S fuel' =>
        match w_msgs w with
        | k :: rest =>
            let forms := forms_at (w_dict w) (w_at w) k in
            let (x', ops) := func x (w_at w, k) forms (w_dict w) in
            let w' := fold_left walk_add ops {| w_dict := w_dict w; w_at := w_at w; w_msgs := rest; w_ctxts := w_ctxts w;
                                                w_valid := w_valid w; w_n := w_n w |} in
            let seen' := seen ++ [((w_at w, k), forms, ops)] in
            if w_valid w' then loop fuel' x' w' seen' else Some (Ub UbPointer, seen', w_dict w')
        | [] =>
            match w_ctxts w with
            | c :: cs =>
                loop fuel' x {| w_dict := w_dict w; w_at := Some c;
                                w_msgs := arrange (S (length cs)) (List.map fst (ctxt_or_new (d_ctxt (w_dict w)) c));
                                w_ctxts := cs; w_valid := w_valid w; w_n := w_n w |} seen
            | [] => Some (Ret x, seen, w_dict w)
            end
        end
    end.

  (** foreach, dictionary.hpp:97-107; foreach_ctxt, dictionary.hpp:115-128 *)
  Definition foreach_calls (fuel : nat) (x : X) (d : dictionary) :=
    loop fuel x {| w_dict := d; w_at := None; w_msgs := arrange 0 (List.map fst (d_entries d)); w_ctxts := [];
                   w_valid := true; w_n := 0 |} [].
  Definition foreach_ctxt_calls (fuel : nat) (x : X) (d : dictionary) :=
    loop fuel x {| w_dict := d; w_at := None; w_msgs := []; w_ctxts := arrange 0 (List.map fst (d_ctxt d));
                   w_valid := true; w_n := 0 |} [].
End Enumerate.
