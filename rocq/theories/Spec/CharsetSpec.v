(** Catalogues in any character set: what a converter promises, what a file then says,
    and what the directories of a search path say. *)
From Verif.Model Require Import Base Log PluralForms Dictionary IConv Language Stream PoParser Manager.
From Verif.Spec Require Import DictSpec LangSpec ParserSpec PoSpec ManagerSpec LoadSpec.
From Verif.Spec Require SoundSpec DamageSpec.
Local Open Scope list_scope.

(** A translator of character sets: for the names of two sets a function on texts, if the
    conversion from the first to the second is on offer. *)
Definition translator := bytes -> bytes -> option (bytes -> bytes).

(** iconv(3) serves [T]: iconv_open succeeds iff the conversion is on offer. With what it
    opens every text is converted as [T] says, given room for four bytes per byte; if that is
    not all of the text, errno is EILSEQ or EINVAL and a reset makes it ready again. *)
Definition serves (I : iconv_impl) (T : translator) : Prop :=
  exists ready : bytes -> bytes -> ic_state I -> Prop,
    (forall from to, match T from to with
                     | Some _ => exists st, ic_open I to from = inl st /\ ready from to st
                     | None => exists e, ic_open I to from = inr e
                     end) /\
    (forall from to f st text, T from to = Some f -> ready from to st ->
       exists st' err, ic_conv I st text (4 * length text) = (st', f text, err) /\
         match err with
         | None => ready from to st'
         | Some EILSEQ | Some EINVAL => ready from to (ic_reset I st')
         | Some _ => False
         end).

(** The conversion for a file whose header names charset [from], read into a dictionary in
    charset [to]: names are compared and looked up in capitals; a name ends at a NUL. *)
Definition conversion_from (T : translator) (from to : bytes) : option (bytes -> bytes) :=
  let f := List.map toupper from in let t := List.map toupper to in
  if bytes_eqb f t then Some (fun text => text) else T (c_str f) (c_str t).

(** ** one file *)
(** an entry that is not the header, its texts converted by [f]; msgctxt, msgid and
    msgid_plural are left as they are *)
Definition entry_says (f : bytes -> bytes) (e : po_entry) : list dict_call :=
  match en_body e with
  | PoStr m =>
      if is_nil (lit_value m) then []
      else [CallAdd (AddSingular (opt_value (en_ctxt e)) (lit_value (en_id e)) (f (lit_value m)))]
  | PoPlural p rows =>
      if forallb (fun r => is_nil (lit_value (snd r))) rows then []
      else [CallAdd (AddPlural (opt_value (en_ctxt e)) (lit_value (en_id e)) (lit_value p)
                       (forms (List.map (fun r => (fst r, f (lit_value (snd r)))) rows)))]
  end.
(** the entries of a file read into a dictionary in charset [to]; every header puts the
    conversion from the charset it names into force; if there is none, the rest of the file
    says nothing *)
Fixpoint file_says (T : translator) (to : bytes) (f : bytes -> bytes) (es : list po_entry) : list dict_call :=
  match es with
  | [] => []
  | e :: es' =>
      match is_header e with
      | Some h => List.map CallPlural (hdr_plurals h) ++
                  match conversion_from T (hdr_charset h) to with
                  | Some g => file_says T to g es'
                  | None => []
                  end
      | None => entry_says f e ++ file_says T to f es'
      end
  end.

(** the first charset that a header names and that cannot be converted from *)
Fixpoint unavailable (T : translator) (to : bytes) (es : list po_entry) : option bytes :=
  match es with
  | [] => None
  | e :: es' =>
      match is_header e with
      | Some h => match conversion_from T (hdr_charset h) to with
                  | Some _ => unavailable T to es'
                  | None => Some (hdr_charset h)
                  end
      | None => unavailable T to es'
      end
  end.
(** the message about it: iconv_open failed *)
Definition refusal (I : iconv_impl) (from to : bytes) : bytes :=
  let f := List.map toupper from in let t := List.map toupper to in
  match ic_open I (c_str t) (c_str f) with
  | inr (EINVAL, _) => bs "IConv construction failed: conversion from '" ++ f ++ bs "' to '" ++ t ++ bs "' not available"
  | inr (_, text) => bs "IConv: construction failed: " ++ text
  | inl _ => []
  end.
(** the text a file offers for a message: of the last entry that offers one; msgstr[0] of a
    plural entry *)
Definition offered (op : add_op) : option bytes :=
  match op with AddSingular _ _ s => Some s | AddPlural _ _ _ fs => hd_error fs end.
Fixpoint said_text (cs : list dict_call) (k : key) : option bytes :=
  match cs with
  | [] => None
  | c :: cs' => match said_text cs' k with
                | Some t => Some t
                | None => match c with
                          | CallAdd op => if key_eq_dec (op_key op) k then offered op else None
                          | CallPlural _ => None
                          end
                end
  end.
(** a file translates something in context [c] *)
Definition said_context (c : bytes) (cs : list dict_call) : bool :=
  existsb (fun op => match fst (op_key op) with Some c' => bytes_eqb c' c | None => false end) (adds cs).

(** ** one directory: what the file that is read for language [l] says *)
Inductive says (cf : config) (T : translator) (o : os_state) (to : bytes) (l : language) (p : bytes) : list dict_call -> Prop :=
| says_nothing files : os_dir o p = Some files -> (forall f, In f files -> ~ candidate cf l f) -> says cf T o to l p []
| says_unreadable before f after : os_dir o p = Some (before ++ f :: after) -> candidate cf l f ->
    (forall g, In g before -> (rating cf l g < rating cf l f)%Z) ->
    (forall g, In g after -> (rating cf l g <= rating cf l f)%Z) ->
    os_file o (p ++ bs "/" ++ f) = None -> says cf T o to l p []
| says_file before f after b sgs : os_dir o p = Some (before ++ f :: after) -> candidate cf l f ->
    (forall g, In g before -> (rating cf l g < rating cf l f)%Z) ->
    (forall g, In g after -> (rating cf l g <= rating cf l f)%Z) ->
    os_file o (p ++ bs "/" ++ f) = Some b -> complete b ->
    DamageSpec.segs_lines sgs = SoundSpec.file_lines b ++ [[]] -> DamageSpec.segs_ok false sgs ->
    says cf T o to l p (file_says T to (fun text => text) (DamageSpec.segs_entries sgs)).

(** ** the search path: [own p] is what directory [p] says *)
Definition first_said (own : bytes -> list dict_call) (path : list bytes) (k : key) : option bytes :=
  first_some (fun p => said_text (own p) k) path.
(** everything, last directory first *)
Definition all_said (own : bytes -> list dict_call) (path : list bytes) : list dict_call :=
  List.concat (List.map own (rev path)).
