(** Catalogues on a disk: what the directories of a search path hold for a language,
    and which text a client should get for a message. *)
From Verif.Model Require Import Base Log PluralForms Dictionary IConv Language Stream PoParser Manager.
From Verif.Spec Require Import DictSpec LangSpec ParserSpec PoSpec ManagerSpec LoadSpec.
From Verif.Spec Require SoundSpec DamageSpec.
Local Open Scope list_scope.

(** ** one file *)
Definition entry_key (e : po_entry) : key := (opt_value (en_ctxt e), lit_value (en_id e)).
(** the text an entry offers: none if it is the header or untranslated; msgstr[0] of a
    plural entry *)
Definition entry_text (e : po_entry) : option bytes :=
  match en_body e with
  | PoStr m => if is_nil (lit_value (en_id e)) || is_nil (lit_value m) then None else Some (lit_value m)
  | PoPlural _ rows =>
      if forallb (fun r => is_nil (lit_value (snd r))) rows then None
      else Some (form 0 (List.map (fun r => (fst r, lit_value (snd r))) rows))
  end.
(** a file's text for a message: that of the last entry that offers one *)
Fixpoint file_text (es : list po_entry) (k : key) : option bytes :=
  match es with
  | [] => None
  | e :: es' => match file_text es' k with
                | Some t => Some t
                | None => if key_eq_dec (entry_key e) k then entry_text e else None
                end
  end.
(** a file translates something in context [c] *)
Definition uses_context (c : bytes) (es : list po_entry) : bool :=
  existsb (fun e => match fst (entry_key e), entry_text e with
                    | Some c', Some _ => bytes_eqb c' c
                    | _, _ => false
                    end) es.

(** ** one directory: the entries of the file that is read for language [l] *)
Inductive holds (cf : config) (o : os_state) (cs : bytes) (l : language) (p : bytes) : list po_entry -> Prop :=
| holds_nothing files : os_dir o p = Some files -> Forall (clean (cf_strict cf)) files ->
    (forall f, In f files -> ~ candidate cf l f) -> holds cf o cs l p []
| holds_file before f after D : os_dir o p = Some (before ++ f :: after) ->
    Forall (clean (cf_strict cf)) (before ++ f :: after) -> candidate cf l f ->
    (forall g, In g before -> (rating cf l g < rating cf l f)%Z) ->
    (forall g, In g after -> (rating cf l g <= rating cf l f)%Z) ->
    os_file o (p ++ bs "/" ++ f) = Some (doc_text D) ->
    doc_ok (cf_strict cf) D -> own_charset cs (doc_entries D) -> holds cf o cs l p (doc_entries D)
(** any complete file, mistakes and all: the entries outside the damaged segments *)
| holds_damaged before f after b sgs : os_dir o p = Some (before ++ f :: after) ->
    Forall (clean (cf_strict cf)) (before ++ f :: after) -> candidate cf l f ->
    (forall g, In g before -> (rating cf l g < rating cf l f)%Z) ->
    (forall g, In g after -> (rating cf l g <= rating cf l f)%Z) ->
    os_file o (p ++ bs "/" ++ f) = Some b ->
    cf_strict cf = false -> complete b ->
    DamageSpec.segs_lines sgs = SoundSpec.file_lines b ++ [[]] -> DamageSpec.segs_ok false sgs ->
    own_charset cs (DamageSpec.segs_entries sgs) -> holds cf o cs l p (DamageSpec.segs_entries sgs)
| holds_unreadable before f after : os_dir o p = Some (before ++ f :: after) ->
    Forall (clean (cf_strict cf)) (before ++ f :: after) -> candidate cf l f ->
    (forall g, In g before -> (rating cf l g < rating cf l f)%Z) ->
    (forall g, In g after -> (rating cf l g <= rating cf l f)%Z) ->
    os_file o (p ++ bs "/" ++ f) = None -> holds cf o cs l p [].

(** ** the search path: [own p] are the entries directory [p] holds *)
Definition path_text (own : bytes -> list po_entry) (path : list bytes) (k : key) : option bytes :=
  first_some (fun p => file_text (own p) k) path.
Definition or_else (o : option bytes) (t : bytes) : bytes := match o with Some s => s | None => t end.
(** everything the files say, last directory first *)
Definition path_calls (own : bytes -> list po_entry) (path : list bytes) : list dict_call :=
  List.concat (List.map entry_calls (List.concat (List.map own (rev path)))).
