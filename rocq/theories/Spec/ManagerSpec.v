(** What clients of DictionaryManager observe. *)
From Verif.Model Require Import Base Log PluralForms Dictionary IConv Language Stream PoParser Manager.
From Verif.Spec Require Import DictSpec LangSpec.
Local Open Scope list_scope.

(** Calls a client can make: the languages it passes are ones it got from the
    library (from_spec, from_env, from_name or the default constructor; C15). *)
Definition client_op (op : mop) : Prop :=
  match op with OpSetLanguage l | OpGetDictionaryLang l => known l | _ => True end.
(** [valid ops]: the same for a session; file systems are arbitrary. *)
Definition valid (ops : list (file_system * mop)) : Prop := Forall (fun o => client_op (snd o)) ops.

(** [session cf fs m ops m']: the calls [ops], made one after the other on a manager
    in state [m] while the files do not change, all return normally. *)
Inductive session (cf : config) (fs : file_system) : manager -> list mop -> manager -> Prop :=
| session_nil : forall m, session cf fs m [] m
| session_cons : forall m op out m1 ops m2,
    mstep cf fs op m = (Ret out, m1) -> session cf fs m1 ops m2 -> session cf fs m (op :: ops) m2.

(** [returns cf fs m l m' d]: get_dictionary(l) returns a reference to dictionary [d]. *)
Definition returns (cf : config) (fs : file_system) (m : manager) (l : language) (m' : manager) (d : dictionary) : Prop :=
  exists p, mstep cf fs (OpGetDictionaryLang l) m = (Ret (OutRef (RefHeap p)), m') /\ heap_get (m_heap m') p = Some d.

(** No client can tell the dictionary [d] (whose fallbacks are in [h]) from [d']. *)
Definition indistinguishable (h : heap) (d : dictionary) (h' : heap) (d' : dictionary) : Prop :=
  (forall depth id, translate depth h d id = translate depth h' d' id) /\
  (forall depth ctxt id, translate_ctxt depth h d ctxt id = translate_ctxt depth h' d' ctxt id) /\
  (forall id pl n, translate_plural d id pl n = translate_plural d' id pl n) /\
  (forall ctxt id pl n, translate_ctxt_plural d ctxt id pl n = translate_ctxt_plural d' ctxt id pl n) /\
  foreach d = foreach d' /\ foreach_ctxt d = foreach_ctxt d' /\
  get_charset d = get_charset d' /\ get_plural_forms d = get_plural_forms d'.

(** The search path a history of calls leaves. *)
Fixpoint path_after (path : list bytes) (ops : list mop) : list bytes :=
  match ops with
  | [] => path
  | OpAddDirectory p front :: ops' =>
      path_after (if in_dec (list_eq_dec ascii_dec) p path then path
                  else if front then p :: path else path ++ [p]) ops'
  | OpRemoveDirectory p :: ops' => path_after (remove (list_eq_dec ascii_dec) p path) ops'
  | _ :: ops' => path_after path ops'
  end.

(** The charset a history of calls leaves. *)
Fixpoint charset_after (cs : bytes) (ops : list mop) : bytes :=
  match ops with
  | [] => cs
  | OpSetCharset c :: ops' => charset_after c ops'
  | _ :: ops' => charset_after cs ops'
  end.

(** The language a history of calls leaves. *)
Fixpoint language_after (l : language) (ops : list mop) : language :=
  match ops with
  | [] => l
  | OpSetLanguage l' :: ops' => language_after l' ops'
  | _ :: ops' => language_after l ops'
  end.

(** A new manager with this charset on which add_directory has been called for each
    directory of the list. *)
Definition fresh (cf : config) (fs : file_system) (cs : bytes) (path : list bytes) : manager :=
  mrun cf (List.map (fun p => (fs, OpAddDirectory p false)) path) (new_manager cs).

(** The translation used by translate / translate_ctxt: the first form. *)
Definition form0 (d : dictionary) (k : key) : option bytes :=
  match lookup d k with Some (f :: _) => Some f | _ => None end.

Fixpoint first_some {A B} (f : A -> option B) (l : list A) : option B :=
  match l with [] => None | a :: l' => match f a with Some b => Some b | None => first_some f l' end end.

(** The language the manager takes a directory entry for: None if it is not a .po
    file or the language is unknown. *)
Definition po_language (cf : config) (f : bytes) : language :=
  if has_suffix f dot_po then
    match convertFilename2Language (cf_strict cf) f with
    | Ret stem => match from_env (cf_ndebug cf) stem with Ret l => l | _ => None end
    | _ => None
    end
  else None.

(** FileSystem implementations return or throw; they do not crash. *)
Definition well_behaved (fs : file_system) : Prop :=
  forall p, match fs_dir fs p with Ret _ | Exn _ => True | _ => False end /\
            match fs_file fs p with Ret _ | Exn _ => True | _ => False end.

(** The same call, or two set_use_fuzzy calls with any arguments. *)
Definition fuzzy_variant (op op' : mop) : Prop :=
  op = op' \/ exists a b, op = OpSetUseFuzzy a /\ op' = OpSetUseFuzzy b.
(** The value a history of calls leaves for get_use_fuzzy. *)
Fixpoint fuzzy_after_all (b : bool) (ops : list mop) : bool :=
  match ops with
  | [] => b
  | OpSetUseFuzzy b' :: ops' => fuzzy_after_all b' ops'
  | _ :: ops' => fuzzy_after_all b ops'
  end.

(** The same disk, with an empty file wherever a file cannot be opened. *)
Definition blanked (o : os_state) : os_state := {|
  os_dir := os_dir o;
  os_file := fun f => match os_file o f with Some b => Some b | None => Some [] end |}.

(** ** file names *)
(** [t] is [s] without a final ".po", if it has one. *)
Definition stripped (s t : bytes) : Prop :=
  s = t ++ bs ".po" \/ ((forall x, s <> x ++ bs ".po") /\ t = s).
Definition letter (c : byte) : Prop := (65 <= code c <= 90 \/ 97 <= code c <= 122)%N.
(** [c'] is the upper-case version of letter [c]. *)
Definition upper_of (c c' : byte) : Prop :=
  (97 <= code c <= 122 /\ code c' = code c - 32)%N \/ (65 <= code c <= 90 /\ c' = c)%N.
(** [r] is [t] with the letters directly after the first underscore in upper case. *)
Definition country_upper (t r : bytes) : Prop :=
  (~ In c_us t /\ r = t) \/
  (exists a b b' c, t = a ++ c_us :: b ++ c /\ r = a ++ c_us :: b' ++ c /\ ~ In c_us a /\
     Forall letter b /\ Forall2 upper_of b b' /\ match c with [] => True | x :: _ => ~ letter x end).
(** The byte at which the scan of the country stops is negative as a char. *)
Definition stops_at_negative (t : bytes) : Prop :=
  exists a b x c, t = a ++ c_us :: b ++ x :: c /\ ~ In c_us a /\ Forall letter b /\ ~ letter x /\ (128 <= code x)%N.
