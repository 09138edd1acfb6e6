(** Dictionary::add_translation when memory runs out (dictionary.cpp:174-242), statement by
    statement. Every operation that may allocate asks for memory once; [grants n] tells
    whether the [n]-th request is granted. (A request stands for all allocations of one
    standard-library operation that either succeeds or has no effect; an operation that
    happens not to allocate is one whose request is granted.)
    Assumed of the standard library: unordered_map::operator[], vector::push_back,
    string::operator= and allocation of a new vector buffer have no effect if they throw;
    vector::operator= assigns the elements one after the other if the buffer is large enough
    ([room]), as libstdc++ and libc++ do; inserting into a stream never throws but sets badbit,
    after which insertions do nothing; the destructor ~Log (log.cpp:59-62) is noexcept, so that
    a std::bad_alloc thrown in it by out.str() ends in std::terminate. *)
From Verif.Model Require Import Base Log PluralForms Dictionary.
Local Open Scope list_scope.

Inductive fate (A : Type) := Fine (a : A) | BadAlloc | Terminate.
Arguments Fine {A} a.
Arguments BadAlloc {A}.
Arguments Terminate {A}.

Record mem_state := { ms_dict : dictionary; ms_asked : nat; ms_log : list log_stmt }.
Definition MM (A : Type) := mem_state -> fate A * mem_state.
Definition ret {A} (a : A) : MM A := fun s => (Fine a, s).
Definition bind {A B} (m : MM A) (k : A -> MM B) : MM B :=
  fun s => match m s with
           | (Fine a, s') => k a s'
           | (BadAlloc, s') => (BadAlloc, s')
           | (Terminate, s') => (Terminate, s')
           end.
Declare Scope mem_scope.
Delimit Scope mem_scope with mem.
Notation "x <- m ;; k" := (bind m (fun x => k)) (at level 61, m at next level, right associativity) : mem_scope.
Notation "m ;; k" := (bind m (fun _ => k)) (at level 61, right associativity) : mem_scope.
Local Open Scope mem_scope.

Section Memory.
  Variable grants : nat -> bool.
  (** does the buffer of the vector suffice when it is assigned to? *)
  Variable room : bool.
  (** is there a callback for warnings? *)
  Variable told : bool.

  Definition request : MM bool := fun s =>
    (Fine (grants (ms_asked s)), {| ms_dict := ms_dict s; ms_asked := S (ms_asked s); ms_log := ms_log s |}).
  Definition alloc : MM unit := g <- request;; if g then ret tt else fun s => (BadAlloc, s).
  Definition get_dict : MM dictionary := fun s => (Fine (ms_dict s), s).
  Definition put_dict (d : dictionary) : MM unit := fun s =>
    (Fine tt, {| ms_dict := d; ms_asked := ms_asked s; ms_log := ms_log s |}).

  (** entries[msgid] (dictionary.cpp:177, 195), ctxt_entries[msgctxt][msgid] (dictionary.cpp:212, 230) *)
  Definition vec_at (ctxt : option bytes) (msgid : bytes) : MM (list bytes) :=
    match ctxt with
    | None =>
        d <- get_dict;;
        match assoc msgid (d_entries d) with
        | Some v => ret v
        | None => alloc;; put_dict (set_entries d (assoc_set msgid [] (d_entries d)));; ret []
        end
    | Some c =>
        d <- get_dict;;
        (match assoc c (d_ctxt d) with
         | Some _ => ret tt
         | None => alloc;; put_dict (set_ctxt d (assoc_set c [] (d_ctxt d)))
         end);;
        d <- get_dict;;
        let es := ctxt_or_new (d_ctxt d) c in
        match assoc msgid es with
        | Some v => ret v
        | None => alloc;; put_dict (set_ctxt d (assoc_set c (assoc_set msgid [] es) (d_ctxt d)));; ret []
        end
    end.
  (** writing through the reference [vec] *)
  Definition write_vec (ctxt : option bytes) (msgid : bytes) (v : list bytes) : MM unit :=
    d <- get_dict;;
    match ctxt with
    | None => put_dict (set_entries d (assoc_set msgid v (d_entries d)))
    | Some c => put_dict (set_ctxt d (assoc_set c (assoc_set msgid v (ctxt_or_new (d_ctxt d) c)) (d_ctxt d)))
    end.

  (** vec = msgstrs. With room: element by element, [done] having been assigned; then the
      elements that are left over are destroyed, or those that are missing constructed. *)
  Fixpoint assign_each (ctxt : option bytes) (msgid : bytes) (done old new : list bytes) : MM unit :=
    match old, new with
    | [], [] => write_vec ctxt msgid done
    | _ :: _, [] => write_vec ctxt msgid done
    | [], _ :: _ => alloc;; write_vec ctxt msgid (done ++ new)
    | _ :: old', x :: new' =>
        alloc;; write_vec ctxt msgid (done ++ x :: old');; assign_each ctxt msgid (done ++ [x]) old' new'
    end.
  Definition vector_assign (ctxt : option bytes) (msgid : bytes) (old new : list bytes) : MM unit :=
    if room then assign_each ctxt msgid [] old new else alloc;; write_vec ctxt msgid new.

  (** log_warning << piece << ... (log_stream.hpp:29, log.cpp:53-68): the temporary Log copies
      the callback and makes its stream, which may throw; the pieces are collected until memory runs out; then the
      destructor copies the text for the callback *)
  Fixpoint insert_pieces (pieces : list bytes) (text : bytes) : MM bytes :=
    match pieces with
    | [] => ret text
    | p :: pieces' => g <- request;; if g then insert_pieces pieces' (text ++ p) else ret text
    end.
  Definition warn (pieces : list bytes) : MM unit :=
    if told then
      alloc;;
      t <- insert_pieces pieces [];;
      g <- request;;
      if g then fun s => (Fine tt, {| ms_dict := ms_dict s; ms_asked := ms_asked s;
                                      ms_log := ms_log s ++ [{| lg_level := LWarning; lg_text := t |}] |})
      else fun s => (Terminate, s)
    else ret tt.

  (** operator<< for vectors, dictionary.cpp:29-38 *)
  Fixpoint print_pieces_tail (v : list bytes) : list bytes :=
    match v with [] => [] | s :: v' => bs ", " :: bs "'" :: s :: bs "'" :: print_pieces_tail v' end.
  Definition print_pieces (v : list bytes) : list bytes :=
    match v with [] => [] | s :: v' => bs "'" :: s :: bs "'" :: print_pieces_tail v' end.

  Definition collision : bytes := bs "collision in add_translation: '".
  (** add_translation(msgid, msgid_plural, msgstrs) and the one with msgctxt,
      dictionary.cpp:174-190, 208-225 *)
  Definition add_plural_mem (ctxt : option bytes) (msgid msgid_plural : bytes) (msgstrs : list bytes) : MM unit :=
    vec <- vec_at ctxt msgid;;
    if is_nil vec then vector_assign ctxt msgid vec msgstrs
    else if negb (strs_eqb vec msgstrs) then
      warn ([collision] ++ match ctxt with Some c => [c; bs "', '"] | None => [] end
            ++ [msgid; bs "', '"; msgid_plural; bs "' -> ["] ++ print_pieces vec ++ [bs "] vs ["]
            ++ print_pieces msgstrs ++ [bs "]"; [c_lf]]);;
      vector_assign ctxt msgid vec msgstrs
    else ret tt.
  (** add_translation(msgid, msgstr) and the one with msgctxt, dictionary.cpp:192-206, 227-242 *)
  Definition add_singular_mem (ctxt : option bytes) (msgid msgstr : bytes) : MM unit :=
    vec <- vec_at ctxt msgid;;
    match vec with
    | [] => alloc;; write_vec ctxt msgid [msgstr]
    | v0 :: vs =>
        if negb (bytes_eqb v0 msgstr) then
          warn ([collision] ++ match ctxt with
                | Some c => [c; bs "', '"; msgid; bs "' -> '"; v0; bs "' vs '"; msgstr]
                | None => [msgid; bs "' -> '"; msgstr; bs "' vs '"; v0]
                end ++ [bs "'"; [c_lf]]);;
          alloc;; write_vec ctxt msgid (msgstr :: vs)
        else ret tt
    end.
  Definition add_mem (op : add_op) : MM unit :=
    match op with
    | AddSingular c i s => add_singular_mem c i s
    | AddPlural c i pl ss => add_plural_mem c i pl ss
    end.
End Memory.

(** A call on dictionary [d]: its fate, the dictionary it leaves, and what it logged. *)
Definition add_call (grants : nat -> bool) (room told : bool) (d : dictionary) (op : add_op)
  : fate unit * dictionary * list log_stmt :=
  let (f, s) := add_mem grants room told op {| ms_dict := d; ms_asked := 0; ms_log := [] |} in
  (f, ms_dict s, ms_log s).
