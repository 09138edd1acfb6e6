(** What threads may do, what they are answered, and what a data race is. *)
From Verif.Model Require Import Base Log PluralForms Dictionary IConv Language Stream PoParser Manager Threads.
From Verif.Spec Require Import DictSpec LangSpec ManagerSpec.
Local Open Scope list_scope.

(** a thread all of whose requests, as long as it is given these answers, satisfy P *)
Fixpoint asks (P : request -> Prop) (answer_to : request -> outcome answer) (c : client) : Prop :=
  match c with
  | Stop => True
  | Ask q k => P q /\ asks P answer_to (k (answer_to q))
  end.
(** a thread all of whose requests satisfy P, whatever it is answered *)
Fixpoint always (P : request -> Prop) (c : client) : Prop :=
  match c with
  | Stop => True
  | Ask q k => P q /\ forall o, always P (k o)
  end.
(** a request that changes no setting *)
Definition no_change (q : request) : Prop := match q with Change _ => False | _ => True end.
(** the dictionary a lookup is made in *)
Definition asked_of (q : request) : option dict_ref :=
  match q with
  | GetDictionary | GetDictionaryLang _ | GetLanguages | Change _ => None
  | Translate r _ | TranslateCtxt r _ _ | TranslatePlural r _ _ _ | TranslateCtxtPlural r _ _ _ _ => Some r
  end.
(** a request that is answered without a look at the map of dictionaries: a lookup in a dictionary
    that is there in state m, get_languages(), get_dictionary() if it has been called since the
    language was set, or there is none *)
Definition lookup_in (m : manager) (q : request) : Prop :=
  match q with
  | GetLanguages => True
  | GetDictionary => m_cur m <> None \/ m_lang m = None
  | GetDictionaryLang _ | Change _ => False
  | _ => exists r, asked_of q = Some r /\ deref m r <> None
  end.
(** a request that needs nothing the manager has not got already: one of those, or get_dictionary(l) of a
    language that has been asked for before *)
Definition ready_in (m : manager) (q : request) : Prop :=
  match q with
  | GetDictionaryLang l => l <> None /\ cache_find l (m_cache m) <> None
  | _ => lookup_in m q
  end.

(** what the manager in state m answers if no other thread is running *)
Definition quiet_answer (cf : config) (fs : file_system) (stack : nat) (m : manager) (q : request) : outcome answer :=
  let of r f := match deref m r with Some d => omap AText (f d) | None => Ub UbPointer end in
  match q with
  | GetDictionary => omap ADict (fst (get_dictionary cf fs m))
  | GetDictionaryLang l => omap (fun p => ADict (RefHeap p)) (fst (get_dictionary_lang cf fs depth0 l m))
  | Translate r i => of r (fun d => fst (translate stack (m_heap m) d i))
  | TranslateCtxt r c i => of r (fun d => fst (translate_ctxt stack (m_heap m) d c i))
  | TranslatePlural r i pl n => of r (fun d => Ret (fst (translate_plural d i pl n)))
  | TranslateCtxtPlural r c i pl n => of r (fun d => Ret (fst (translate_ctxt_plural d c i pl n)))
  | GetLanguages => omap ALangs (fst (get_languages cf fs m))
  | Change s => omap (fun _ => ADone) (fst (mstep cf fs (op_of s) m))
  end.

(** accesses by different threads to the same object, at least one of them writing *)
Definition conflict (a b : access) : Prop :=
  match a, b with
  | Writes o, Writes o' | Writes o, Reads o' | Reads o, Writes o' => o = o'
  | _, _ => False
  end.
Definition data_race (acc : list (nat * access)) : Prop :=
  exists i j a b, i <> j /\ In (i, a) acc /\ In (j, b) acc /\ conflict a b.

(** everything but the log *)
Definition same_but_log (m m' : manager) : Prop := upd_tr m [] = upd_tr m' [].

(** the answers thread i has had *)
Definition answers (s : system) (i : nat) : list (request * outcome answer) :=
  match nth_error (s_threads s) i with Some t => th_log t | None => [] end.

(** thread n's first call has returned *)
Definition returned (s : system) (n : nat) : Prop := exists q a rest, answers s n = (q, Ret a) :: rest.

(** an object is the same in two states: it has the same contents, and if it is a dictionary that
    was there, it is there still *)
Definition same_at (o : object) (m m' : manager) : Prop :=
  match o with
  | TheMap => m_cache m' = m_cache m
  | ThePath => m_path m' = m_path m
  | TheCharset => m_charset m' = m_charset m
  | TheFuzzy => m_fuzzy m' = m_fuzzy m
  | TheCurrent => m_lang m' = m_lang m /\ m_cur m' = m_cur m
  | TheDict r => deref m r <> None -> deref m' r = deref m r
  end.
