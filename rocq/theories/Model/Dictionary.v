(** Model of src/dictionary.cpp and include/tinygettext/dictionary.hpp. *)
From Verif.Model Require Import Base Log PluralForms.
Local Open Scope list_scope.

(** typedef Entries / CtxtEntries, dictionary.hpp:37-41 *)
Definition entries := list (bytes * list bytes).
Definition ctxt_entries := list (bytes * entries).

(** A Dictionary*: [None] is nullptr; live dictionaries live in a heap. *)
Definition ptr := nat.

(** class Dictionary, dictionary.hpp:34-50 *)
Record dictionary := {
  d_entries : entries;
  d_ctxt : ctxt_entries;
  d_charset : bytes;
  d_plural : plural_forms;
  d_has_fallback : bool;
  d_fallback : option ptr }.

(** Dictionary::Dictionary, dictionary.cpp:42-50 (default charset "UTF-8",
    dictionary.hpp:54) *)
Definition new_dictionary (charset : bytes) : dictionary :=
  {| d_entries := []; d_ctxt := []; d_charset := charset; d_plural := pf_none;
     d_has_fallback := false; d_fallback := None |}.
Definition utf8 : bytes := bs "UTF-8".

Definition set_entries (d : dictionary) (e : entries) : dictionary :=
  {| d_entries := e; d_ctxt := d_ctxt d; d_charset := d_charset d; d_plural := d_plural d;
     d_has_fallback := d_has_fallback d; d_fallback := d_fallback d |}.
Definition set_ctxt (d : dictionary) (e : ctxt_entries) : dictionary :=
  {| d_entries := d_entries d; d_ctxt := e; d_charset := d_charset d; d_plural := d_plural d;
     d_has_fallback := d_has_fallback d; d_fallback := d_fallback d |}.

(** get_charset, dictionary.cpp:56-60 *)
Definition get_charset (d : dictionary) : bytes := d_charset d.

(** set_plural_forms / get_plural_forms, dictionary.cpp:62-72 *)
Definition set_plural_forms (d : dictionary) (p : plural_forms) : dictionary :=
  {| d_entries := d_entries d; d_ctxt := d_ctxt d; d_charset := d_charset d; d_plural := p;
     d_has_fallback := d_has_fallback d; d_fallback := d_fallback d |}.
Definition get_plural_forms (d : dictionary) : plural_forms := d_plural d.

(** addFallback, dictionary.hpp:109-113 *)
Definition add_fallback (d : dictionary) (fb : option ptr) : dictionary :=
  {| d_entries := d_entries d; d_ctxt := d_ctxt d; d_charset := d_charset d; d_plural := d_plural d;
     d_has_fallback := true; d_fallback := fb |}.

(** operator<< for vectors, dictionary.cpp:29-38 *)
Fixpoint print_strs_tail (v : list bytes) : bytes :=
  match v with
  | [] => []
  | s :: v' => bs ", " ++ bs "'" ++ s ++ bs "'" ++ print_strs_tail v'
  end.
Definition print_strs (v : list bytes) : bytes :=
  match v with
  | [] => []
  | s :: v' => bs "'" ++ s ++ bs "'" ++ print_strs_tail v'
  end.

(** entries[msgid] creates an empty vector if absent. *)
Definition entry_or_new (e : entries) (k : bytes) : list bytes :=
  match assoc k e with Some v => v | None => [] end.
Definition ctxt_or_new (e : ctxt_entries) (k : bytes) : entries :=
  match assoc k e with Some v => v | None => [] end.

(** The common core of the two plural overloads of add_translation,
    dictionary.cpp:178-189 and 213-224: new vector and whether a collision is
    reported. *)
Definition put_plural (vec msgstrs : list bytes) : list bytes * bool :=
  if is_nil vec then (msgstrs, false)
  else if negb (strs_eqb vec msgstrs) then (msgstrs, true)
  else (vec, false).

(** The common core of the two singular overloads, dictionary.cpp:195-205 and
    230-241. *)
Definition put_singular (vec : list bytes) (msgstr : bytes) : list bytes * bool :=
  match vec with
  | [] => ([msgstr], false)
  | v0 :: vs => if negb (bytes_eqb v0 msgstr) then (msgstr :: vs, true) else (vec, false)
  end.

(** add_translation(msgid, msgid_plural, msgstrs), dictionary.cpp:174-190 *)
Definition add_plural (d : dictionary) (msgid msgid_plural : bytes) (msgstrs : list bytes)
  : dictionary * list log_stmt :=
  let vec := entry_or_new (d_entries d) msgid in
  let (vec', col) := put_plural vec msgstrs in
  (set_entries d (assoc_set msgid vec' (d_entries d)),
   if col then [log_warning (bs "collision in add_translation: '" ++ msgid ++ bs "', '" ++ msgid_plural
                ++ bs "' -> [" ++ print_strs vec ++ bs "] vs [" ++ print_strs msgstrs ++ bs "]")]
   else []).

(** add_translation(msgid, msgstr), dictionary.cpp:192-206 *)
Definition add_singular (d : dictionary) (msgid msgstr : bytes) : dictionary * list log_stmt :=
  let vec := entry_or_new (d_entries d) msgid in
  let (vec', col) := put_singular vec msgstr in
  (set_entries d (assoc_set msgid vec' (d_entries d)),
   if col then [log_warning (bs "collision in add_translation: '" ++ msgid ++ bs "' -> '" ++ msgstr
                ++ bs "' vs '" ++ hd [] vec ++ bs "'")]
   else []).

(** add_translation(msgctxt, msgid, msgid_plural, msgstrs), dictionary.cpp:208-225 *)
Definition add_ctxt_plural (d : dictionary) (msgctxt msgid msgid_plural : bytes) (msgstrs : list bytes)
  : dictionary * list log_stmt :=
  let es := ctxt_or_new (d_ctxt d) msgctxt in
  let vec := entry_or_new es msgid in
  let (vec', col) := put_plural vec msgstrs in
  (set_ctxt d (assoc_set msgctxt (assoc_set msgid vec' es) (d_ctxt d)),
   if col then [log_warning (bs "collision in add_translation: '" ++ msgctxt ++ bs "', '" ++ msgid
                ++ bs "', '" ++ msgid_plural
                ++ bs "' -> [" ++ print_strs vec ++ bs "] vs [" ++ print_strs msgstrs ++ bs "]")]
   else []).

(** add_translation(msgctxt, msgid, msgstr), dictionary.cpp:227-242 *)
Definition add_ctxt_singular (d : dictionary) (msgctxt msgid msgstr : bytes)
  : dictionary * list log_stmt :=
  let es := ctxt_or_new (d_ctxt d) msgctxt in
  let vec := entry_or_new es msgid in
  let (vec', col) := put_singular vec msgstr in
  (set_ctxt d (assoc_set msgctxt (assoc_set msgid vec' es) (d_ctxt d)),
   if col then [log_warning (bs "collision in add_translation: '" ++ msgctxt ++ bs "', '" ++ msgid
                ++ bs "' -> '" ++ hd [] vec ++ bs "' vs '" ++ msgstr ++ bs "'")]
   else []).

(** One add_translation call, whichever overload. *)
Inductive add_op :=
| AddSingular (ctxt : option bytes) (msgid msgstr : bytes)
| AddPlural (ctxt : option bytes) (msgid msgid_plural : bytes) (msgstrs : list bytes).

Definition add_translation (d : dictionary) (op : add_op) : dictionary * list log_stmt :=
  match op with
  | AddSingular None msgid msgstr => add_singular d msgid msgstr
  | AddSingular (Some c) msgid msgstr => add_ctxt_singular d c msgid msgstr
  | AddPlural None msgid pl strs => add_plural d msgid pl strs
  | AddPlural (Some c) msgid pl strs => add_ctxt_plural d c msgid pl strs
  end.

Definition add_all (d : dictionary) (ops : list add_op) : dictionary :=
  fold_left (fun d op => fst (add_translation d op)) ops d.

(** Heap of live Dictionary objects. *)
Definition heap := list (ptr * dictionary).
Fixpoint heap_get (h : heap) (p : ptr) : option dictionary :=
  match h with
  | [] => None
  | (q, d) :: h' => if Nat.eqb p q then Some d else heap_get h' p
  end.
Fixpoint heap_set (h : heap) (p : ptr) (d : dictionary) : heap :=
  match h with
  | [] => [(p, d)]
  | (q, d') :: h' => if Nat.eqb p q then (q, d) :: h' else (q, d') :: heap_set h' p d
  end.

(** "default to english rules", dictionary.cpp:98-101, 110-113, 167-170 *)
Definition english (msgid msgid_plural : bytes) (count : Z) : bytes :=
  if (count =? 1)%Z then msgid else msgid_plural.

(** translate_plural(dict, msgid, msgid_plural, count), dictionary.cpp:80-115.
    Pure: result and log statements. get_plural returns unsigned int; all plural
    functions return small non-negative values, so [Z.to_nat] is exact. *)
Definition translate_plural_in (d : dictionary) (es : entries)
           (msgid msgid_plural : bytes) (count : Z) : bytes * list log_stmt :=
  match assoc msgid es with
  | Some msgstrs =>
      let n := get_plural (d_plural d) count in
      if (Z.of_nat (length msgstrs) <=? n)%Z then
        (msgid, [log_error (bs "Plural translation not available (and not set to empty): '" ++ msgid ++ bs "'");
                 log_error (bs "Missing plural form: " ++ dec_Z n)])
      else
        let f := nth (Z.to_nat n) msgstrs [] in
        if negb (is_nil f) then (f, [])
        else (english msgid msgid_plural count, [])
  | None =>
      (english msgid msgid_plural count,
       log_info (bs "Couldn't translate: " ++ msgid) :: log_info (bs "Candidates: ")
       :: List.map (fun kv => log_info (bs "'" ++ fst kv ++ bs "'")) es)
  end.

(** translate_plural(msgid, msgid_plural, num), dictionary.cpp:74-78 *)
Definition translate_plural (d : dictionary) (msgid msgid_plural : bytes) (num : Z)
  : bytes * list log_stmt :=
  translate_plural_in d (d_entries d) msgid msgid_plural num.

(** translate(dict, msgid) and translate(msgid), dictionary.cpp:117-138. The
    recursion through m_fallback is bounded by [fuel] (call depth); dereferencing
    a null or dead m_fallback is undefined. *)
Fixpoint translate_in (fuel : nat) (h : heap) (d : dictionary) (es : entries) (msgid : bytes)
  : outcome bytes * list log_stmt :=
  match fuel with
  | O => (OutOfFuel, [])
  | S fuel' =>
      match assoc msgid es with
      | Some (v0 :: _) => (Ret v0, [])
      | _ =>
          let l := [log_info (bs "Couldn't translate: " ++ msgid)] in
          if d_has_fallback d then
            match match d_fallback d with Some p => heap_get h p | None => None end with
            | Some fb => let (r, l') := translate_in fuel' h fb (d_entries fb) msgid in (r, l ++ l')
            | None => (Ub UbPointer, l)
            end
          else (Ret msgid, l)
      end
  end.

Definition translate (fuel : nat) (h : heap) (d : dictionary) (msgid : bytes)
  : outcome bytes * list log_stmt :=
  translate_in fuel h d (d_entries d) msgid.

(** translate_ctxt, dictionary.cpp:140-153 *)
Definition translate_ctxt (fuel : nat) (h : heap) (d : dictionary) (msgctxt msgid : bytes)
  : outcome bytes * list log_stmt :=
  match assoc msgctxt (d_ctxt d) with
  | Some es => translate_in fuel h d es msgid
  | None => (Ret msgid, [log_info (bs "Couldn't translate: " ++ msgid)])
  end.

(** translate_ctxt_plural, dictionary.cpp:155-172 *)
Definition translate_ctxt_plural (d : dictionary) (msgctxt msgid msgidplural : bytes) (num : Z)
  : bytes * list log_stmt :=
  match assoc msgctxt (d_ctxt d) with
  | Some es => translate_plural_in d es msgid msgidplural num
  | None => (if negb (num =? 1)%Z then msgidplural else msgid,
             [log_info (bs "Couldn't translate: " ++ msgid)])
  end.

(** foreach / foreach_ctxt, dictionary.hpp:97-107, 115-128: the sequence of
    argument tuples passed to func. *)
Definition foreach (d : dictionary) : list (bytes * list bytes) := d_entries d.
Definition foreach_ctxt (d : dictionary) : list (bytes * bytes * list bytes) :=
  flat_map (fun ce => List.map (fun e => (fst ce, fst e, snd e)) (snd ce)) (d_ctxt d).
