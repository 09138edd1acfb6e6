(** Several threads using one DictionaryManager and the dictionaries it has returned. The library
    has no locks; a call is a sequence of accesses to shared data, and the accesses of different
    threads may be interleaved in any way (sequential consistency). An access is one operation on
    the map of dictionaries, on one of the manager's other members, or on one dictionary. C++ promises
    less: two accesses to one object by different threads, one of them writing, are undefined, as
    nothing orders them; so the accesses made are recorded. *)
From Verif.Model Require Import Base Log PluralForms Dictionary IConv Language Stream PoParser Manager.
Local Open Scope list_scope.

(** DictionaryManager's members dictionaries; search_path; charset; use_fuzzy; current_language and
    current_dict; and the dictionaries themselves, dictionary_manager.hpp:41-56 *)
Inductive object := TheMap | ThePath | TheCharset | TheFuzzy | TheCurrent | TheDict (r : dict_ref).
(** [Logs]: a line written to the log (std::cerr may be used by several threads at once) *)
Inductive access := Reads (o : object) | Writes (o : object) | Logs.

(** a call in progress: ended, or about to make its next access *)
Inductive res (A : Type) :=
| Fin (o : outcome A)
| Tick (a : access) (f : manager -> res A * manager).
Arguments Fin {A}. Arguments Tick {A}.
Fixpoint rbind {A B} (r : res A) (k : A -> res B) : res B :=
  match r with
  | Fin (Ret a) => k a
  | Fin (Exn e) => Fin (Exn e) | Fin (Ub u) => Fin (Ub u)
  | Fin AssertFail => Fin AssertFail | Fin OutOfFuel => Fin OutOfFuel
  | Tick a f => Tick a (fun m => match f m with (r', m') => (rbind r' k, m') end)
  end.
Definition act {A} (a : access) (g : M manager A) : res A :=
  Tick a (fun m => match g m with (o, m') => (Fin o, m') end).
Definition rret {A} (a : A) : res A := Fin (Ret a).
Declare Scope res_scope.
Notation "x <- r ;; k" := (rbind r (fun x => k)) (at level 61, r at next level, right associativity) : res_scope.
Notation "r ;; k" := (rbind r (fun _ => k)) (at level 61, right associativity) : res_scope.
Local Open Scope res_scope.

(** dictionaries[language] = dict, dictionary_manager.cpp:119 *)
Fixpoint cache_set (l : language) (p : ptr) (c : list (language * ptr)) : list (language * ptr) :=
  match c with
  | [] => [(l, p)]
  | (k, q) :: c' => if lang_eqb l k then (k, p) :: c' else (k, q) :: cache_set l p c'
  end.
Definition upd_cache (m : manager) (c : list (language * ptr)) : manager :=
  {| m_heap := m_heap m; m_next := m_next m; m_freed := m_freed m; m_cache := c; m_path := m_path m;
     m_charset := m_charset m; m_fuzzy := m_fuzzy m; m_lang := m_lang m; m_cur := m_cur m;
     m_empty := m_empty m; m_tr := m_tr m |}.
(** new Dictionary(charset), dictionary_manager.cpp:117 *)
Definition make : M manager ptr :=
  fun m => (Ret (m_next m),
    {| m_heap := (m_next m, new_dictionary (m_charset m)) :: m_heap m; m_next := S (m_next m);
       m_freed := m_freed m; m_cache := m_cache m; m_path := m_path m; m_charset := m_charset m;
       m_fuzzy := m_fuzzy m; m_lang := m_lang m; m_cur := m_cur m; m_empty := m_empty m; m_tr := m_tr m |}).
Definition look (r : dict_ref) : M manager dictionary :=
  fun m => (match deref m r with Some d => Ret d | None => Ub UbPointer end, m).
Definition change_dict (id : ptr) (f : dictionary -> dictionary) : M manager unit :=
  fun m => match heap_get (m_heap m) id with
           | None => (Ub UbPointer, m)
           | Some d => (Ret tt, upd_heap m (heap_set (m_heap m) id (f d)))
           end.

Section Threads.
  Variable cf : config.
  Variable fs : file_system.
  Variable stack : nat.         (* the depth of recursion the stack allows *)

  (** dictionary_manager.cpp:128-151; names are looked up in tables that are complete *)
  Definition rconsider (lang : language) (best : bytes * Z) (filename : bytes) : res (bytes * Z) :=
    if has_suffix filename dot_po then
      stem <- Fin (convertFilename2Language (cf_strict cf) filename);;
      po <- Fin (from_env (cf_ndebug cf) stem);;
      if is_none po then
        act Logs (emit_m [EvLog (log_warning (filename ++ bs ": warning: ignoring, unknown language"))]);; rret best
      else
        let score := lang_match lang po in
        rret (if (snd best <? score)%Z then (filename, score) else best)
    else rret best.
  Fixpoint rbest_file (lang : language) (best : bytes * Z) (files : list bytes) : res (bytes * Z) :=
    match files with
    | [] => rret best
    | f :: files' => b <- rconsider lang best f;; rbest_file lang b files'
    end.

  (** POParser::parse, one access for each call it makes on the dictionary. (It is the only one to
      write to this dictionary, so that what it does is what it would do alone.) *)
  Fixpoint rcalls (id : ptr) (cs : list dict_call) : res unit :=
    match cs with
    | [] => rret tt
    | c :: cs' => act (Writes (TheDict (RefHeap id))) (change_dict id (fun d => apply_call d c));; rcalls id cs'
    end.
  (** dictionary_manager.cpp:153-173 *)
  Definition rload_file (id : ptr) (pofile : bytes) : res unit :=
    let failed e := act Logs (emit_m [EvLog (log_error (bs "error: failure parsing: " ++ pofile)); EvLog (log_error (what e))]) in
    match fs_file fs pofile with
    | Ret None => act Logs (emit_m [EvLog (log_error (bs "error: failure opening: " ++ pofile))])
    | Ret (Some i) =>
        d <- act (Reads (TheDict (RefHeap id))) (look (RefHeap id));;
        let r := po_parse cf pofile i d in
        rcalls id (pr_calls r);;
        act Logs (emit_m (pr_trace r));;
        match pr_outcome r with
        | Exn e => if is_std e then failed e else Fin (Exn e)
        | o => Fin o
        end
    | Exn e => if is_std e then failed e else Fin (Exn e)
    | Ub u => Fin (Ub u) | AssertFail => Fin AssertFail | OutOfFuel => Fin OutOfFuel
    end.
  (** dictionary_manager.cpp:121-174 *)
  Definition rload_dir (lang : language) (id : ptr) (p : bytes) : res unit :=
    files <- Fin (fs_dir fs p);;
    best <- rbest_file lang ([], 0%Z) files;;
    if is_nil (fst best) then rret tt
    else rload_file id (p ++ bs "/" ++ fst best).
  Fixpoint rload_dirs (lang : language) (id : ptr) (ps : list bytes) : res unit :=
    match ps with
    | [] => rret tt
    | p :: ps' => rload_dir lang id p;; rload_dirs lang id ps'
    end.

  (** get_dictionary(const Language&), dictionary_manager.cpp:102-183 *)
  Fixpoint rget_lang (depth : nat) (lang : language) : res ptr :=
    match depth with
    | O => Fin OutOfFuel
    | S dp =>
        if negb (cf_ndebug cf) && is_none lang then Fin AssertFail
        else
          c <- act (Reads TheMap) (mget m_cache);;
          match cache_find lang c with
          | Some p => rret p
          | None =>
              id <- act (Reads TheCharset) make;;
              act (Writes TheMap) (mmod (fun m => upd_cache m (cache_set lang id (m_cache m))));;
              path <- act (Reads ThePath) (mget m_path);;
              rload_dirs lang id (rev path);;
              if is_nil (get_country lang) then rret id
              else
                base <- Fin (from_spec (cf_ndebug cf) (get_language lang) [] []);;
                fb <- rget_lang dp base;;
                act (Writes (TheDict (RefHeap id))) (set_fallback id fb);;
                rret id
          end
    end.

  (** get_dictionary(), dictionary_manager.cpp:81-100 *)
  Definition rget : res dict_ref :=
    cur <- act (Reads TheCurrent) (mget m_cur);;
    match cur with
    | Some p => rret (RefHeap p)
    | None =>
        l <- act (Reads TheCurrent) (mget m_lang);;
        if is_none l then rret RefEmpty
        else
          p <- rget_lang depth0 l;;
          act (Writes TheCurrent) (mmod (fun m => upd_lang m (m_lang m) (Some p)));;
          rret (RefHeap p)
    end.

  (** translate(dict, msgid), dictionary.cpp:117-138; each dictionary is read when it is reached *)
  Fixpoint rtranslate_in (fuel : nat) (d : dictionary) (es : entries) (msgid : bytes) : res bytes :=
    match fuel with
    | O => Fin OutOfFuel
    | S fuel' =>
        match assoc msgid es with
        | Some (v0 :: _) => rret v0
        | _ =>
            act Logs (emit_m [EvLog (log_info (bs "Couldn't translate: " ++ msgid))]);;
            if d_has_fallback d then
              match d_fallback d with
              | Some p => fb <- act (Reads (TheDict (RefHeap p))) (look (RefHeap p));;
                          rtranslate_in fuel' fb (d_entries fb) msgid
              | None => Fin (Ub UbPointer)
              end
            else rret msgid
        end
    end.
  Definition logged (x : bytes * list log_stmt) : res bytes :=
    act Logs (emit_m (List.map EvLog (snd x)));; rret (fst x).

  (** clear_cache(), dictionary_manager.cpp:69-79 *)
  Fixpoint rdelete_all (c : list (language * ptr)) : res unit :=
    match c with
    | [] => rret tt
    | (_, p) :: c' => act (Writes (TheDict (RefHeap p))) (delete p);; rdelete_all c'
    end.
  Definition rclear : res unit :=
    c <- act (Reads TheMap) (mget m_cache);;
    rdelete_all c;;
    act (Writes TheMap) (mmod (fun m => upd_cache m []));;
    act (Writes TheCurrent) (mmod (fun m => upd_lang m (m_lang m) None)).
  (** the calls that change the settings, dictionary_manager.cpp:205-213, 221-233, 241-261 *)
  Inductive setting :=
  | SetLanguage (l : language)
  | SetCharset (c : bytes)
  | SetUseFuzzy (b : bool)
  | AddDirectory (p : bytes) (precedence : bool)
  | RemoveDirectory (p : bytes).
  Definition rset (s : setting) : res unit :=
    match s with
    | SetLanguage l =>
        cur <- act (Reads TheCurrent) (mget m_lang);;
        if negb (lang_eqb cur l) then act (Writes TheCurrent) (mmod (fun m => upd_lang m l None)) else rret tt
    | SetCharset c => rclear;; act (Writes TheCharset) (mmod (fun m => upd_charset m c))
    | SetUseFuzzy b => rclear;; act (Writes TheFuzzy) (mmod (fun m => upd_fuzzy m b))
    | AddDirectory p pr =>
        path <- act (Reads ThePath) (mget m_path);;
        if existsb (bytes_eqb p) path then rret tt
        else rclear;; act (Writes ThePath) (mmod (fun m => upd_path m (if pr then p :: m_path m else m_path m ++ [p])))
    | RemoveDirectory p =>
        path <- act (Reads ThePath) (mget m_path);;
        if existsb (bytes_eqb p) path then
          rclear;; act (Writes ThePath) (mmod (fun m => upd_path m (erase p (m_path m))))
        else rret tt
    end.
  Definition op_of (s : setting) : mop :=
    match s with
    | SetLanguage l => OpSetLanguage l | SetCharset c => OpSetCharset c | SetUseFuzzy b => OpSetUseFuzzy b
    | AddDirectory p pr => OpAddDirectory p pr | RemoveDirectory p => OpRemoveDirectory p
    end.

  (** what a thread may ask for: get_dictionary(), get_dictionary(l), get_languages(), the four
      lookups of a dictionary it has a reference to, and to change a setting *)
  Inductive request :=
  | GetDictionary
  | GetDictionaryLang (l : language)
  | Translate (r : dict_ref) (msgid : bytes)
  | TranslateCtxt (r : dict_ref) (msgctxt msgid : bytes)
  | TranslatePlural (r : dict_ref) (msgid msgid_plural : bytes) (num : Z)
  | TranslateCtxtPlural (r : dict_ref) (msgctxt msgid msgid_plural : bytes) (num : Z)
  | GetLanguages
  | Change (s : setting).
  Inductive answer := ADict (r : dict_ref) | AText (t : bytes) | ALangs (ls : list language) | ADone.
  Definition rmap {A B} (f : A -> B) (r : res A) : res B := a <- r;; rret (f a).
  Definition rlook (r : dict_ref) (k : dictionary -> res bytes) : res answer :=
    rmap AText (d <- act (Reads (TheDict r)) (look r);; k d).
  (** get_languages(), dictionary_manager.cpp:185-203; the search path is the only member it reads *)
  Definition rlangs : res (list language) :=
    path <- act (Reads ThePath) (mget m_path);; Fin (langs_of_dirs cf fs path []).
  Definition rcall (q : request) : res answer :=
    match q with
    | GetDictionary => rmap ADict rget
    | GetDictionaryLang l => rmap (fun p => ADict (RefHeap p)) (rget_lang depth0 l)
    | Translate r i => rlook r (fun d => rtranslate_in stack d (d_entries d) i)
    | TranslateCtxt r c i =>                                         (* dictionary.cpp:140-153 *)
        rlook r (fun d =>
          match assoc c (d_ctxt d) with
          | Some es => rtranslate_in stack d es i
          | None => logged (i, [log_info (bs "Couldn't translate: " ++ i)])
          end)
    | TranslatePlural r i pl n => rlook r (fun d => logged (translate_plural d i pl n))
    | TranslateCtxtPlural r c i pl n => rlook r (fun d => logged (translate_ctxt_plural d c i pl n))
    | GetLanguages => rmap ALangs rlangs
    | Change s => rmap (fun _ => ADone) (rset s)
    end.

  (** a thread: calls that may depend on the answers to earlier ones *)
  Inductive client := Stop | Ask (q : request) (k : outcome answer -> client).
  Inductive doing := Idle (c : client) | Busy (q : request) (r : res answer) (k : outcome answer -> client).
  (** a thread with what it has been answered so far *)
  Record thread := { th_log : list (request * outcome answer); th_now : doing }.
  Definition start_thread (c : client) : thread := {| th_log := []; th_now := Idle c |}.

  (** one step of one thread: a call begins, makes an access, or ends *)
  Definition thread_step (t : thread) (m : manager) : thread * option access * manager :=
    match th_now t with
    | Idle Stop => (t, None, m)
    | Idle (Ask q k) => ({| th_log := th_log t; th_now := Busy q (rcall q) k |}, None, m)
    | Busy q (Fin o) k => ({| th_log := th_log t ++ [(q, o)]; th_now := Idle (k o) |}, None, m)
    | Busy q (Tick a f) k =>
        match f m with (r, m') => ({| th_log := th_log t; th_now := Busy q r k |}, Some a, m') end
    end.

  (** the threads, the manager, and the accesses made so far *)
  Record system := { s_threads : list thread; s_man : manager; s_acc : list (nat * access) }.
  Fixpoint put_nth {A} (n : nat) (x : A) (l : list A) : list A :=
    match l, n with
    | [], _ => []
    | _ :: l', O => x :: l'
    | y :: l', S n' => y :: put_nth n' x l'
    end.
  Definition turn (s : system) (n : nat) : system :=
    match nth_error (s_threads s) n with
    | None => s
    | Some t =>
        match thread_step t (s_man s) with
        | (t', a, m') => {| s_threads := put_nth n t' (s_threads s); s_man := m';
                            s_acc := s_acc s ++ match a with Some a => [(n, a)] | None => [] end |}
        end
    end.
  Definition start (cs : list client) (m : manager) : system :=
    {| s_threads := List.map start_thread cs; s_man := m; s_acc := [] |}.
  (** a schedule says whose turn it is, step by step *)
  Definition play (sched : list nat) (s : system) : system := fold_left turn sched s.

  (** a call that is not interrupted *)
  Fixpoint alone {A} (r : res A) (m : manager) : outcome A * manager :=
    match r with
    | Fin o => (o, m)
    | Tick _ f => match f m with (r', m') => alone r' m' end
    end.
End Threads.
