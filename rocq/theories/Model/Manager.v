(** Model of src/dictionary_manager.cpp, include/tinygettext/dictionary_manager.hpp,
    include/tinygettext/file_system.hpp and src/unix_file_system.cpp. *)
From Verif.Model Require Import Base Log PluralForms Dictionary IConv Language Stream PoParser.
Local Open Scope list_scope.

(** class FileSystem, file_system.hpp:30-37: an oracle. open_directory may throw;
    open_file may throw, or return a null pointer ([None]). *)
Record file_system := {
  fs_dir : bytes -> outcome (list bytes);
  fs_file : bytes -> outcome (option istream) }.

(** What the operating system holds: directory listings and file contents. *)
Record os_state := {
  os_dir : bytes -> option (list bytes);
  os_file : bytes -> option bytes }.

(** UnixFileSystem, unix_file_system.cpp:37-56: directory_iterator throws if the
    directory cannot be opened; open_file always returns a stream object, in failed
    state if the file could not be opened. *)
Definition unix_file_system (o : os_state) : file_system := {|
  fs_dir := fun p => match os_dir o p with Some l => Ret l | None => Exn (ExFilesystem p) end;
  fs_file := fun p => Ret (Some (match os_file o p with
                                 | Some b => stream_of b | None => failed_stream end)) |}.

(** class DictionaryManager, dictionary_manager.hpp:41-56. Dictionaries live in
    [m_heap]; [m_next] is the next address, [m_freed] (ghost) the addresses deleted
    so far, [m_tr] the effects so far. *)
Record manager := {
  m_heap : heap;
  m_next : ptr;
  m_freed : list ptr;
  m_cache : list (language * ptr);
  m_path : list bytes;
  m_charset : bytes;
  m_fuzzy : bool;
  m_lang : language;
  m_cur : option ptr;
  m_empty : dictionary;
  m_tr : list event }.

(** constructors, dictionary_manager.cpp:44-59 *)
Definition new_manager (charset : bytes) : manager :=
  {| m_heap := []; m_next := 0; m_freed := []; m_cache := []; m_path := []; m_charset := charset;
     m_fuzzy := true; m_lang := None; m_cur := None; m_empty := new_dictionary utf8; m_tr := [] |}.

Definition upd_heap (m : manager) (h : heap) : manager :=
  {| m_heap := h; m_next := m_next m; m_freed := m_freed m; m_cache := m_cache m; m_path := m_path m;
     m_charset := m_charset m; m_fuzzy := m_fuzzy m; m_lang := m_lang m; m_cur := m_cur m;
     m_empty := m_empty m; m_tr := m_tr m |}.
Definition upd_tr (m : manager) (t : list event) : manager :=
  {| m_heap := m_heap m; m_next := m_next m; m_freed := m_freed m; m_cache := m_cache m; m_path := m_path m;
     m_charset := m_charset m; m_fuzzy := m_fuzzy m; m_lang := m_lang m; m_cur := m_cur m;
     m_empty := m_empty m; m_tr := t |}.
Definition upd_path (m : manager) (p : list bytes) : manager :=
  {| m_heap := m_heap m; m_next := m_next m; m_freed := m_freed m; m_cache := m_cache m; m_path := p;
     m_charset := m_charset m; m_fuzzy := m_fuzzy m; m_lang := m_lang m; m_cur := m_cur m;
     m_empty := m_empty m; m_tr := m_tr m |}.
Definition upd_lang (m : manager) (l : language) (c : option ptr) : manager :=
  {| m_heap := m_heap m; m_next := m_next m; m_freed := m_freed m; m_cache := m_cache m; m_path := m_path m;
     m_charset := m_charset m; m_fuzzy := m_fuzzy m; m_lang := l; m_cur := c;
     m_empty := m_empty m; m_tr := m_tr m |}.
Definition upd_charset (m : manager) (c : bytes) : manager :=
  {| m_heap := m_heap m; m_next := m_next m; m_freed := m_freed m; m_cache := m_cache m; m_path := m_path m;
     m_charset := c; m_fuzzy := m_fuzzy m; m_lang := m_lang m; m_cur := m_cur m;
     m_empty := m_empty m; m_tr := m_tr m |}.
Definition upd_fuzzy (m : manager) (b : bool) : manager :=
  {| m_heap := m_heap m; m_next := m_next m; m_freed := m_freed m; m_cache := m_cache m; m_path := m_path m;
     m_charset := m_charset m; m_fuzzy := b; m_lang := m_lang m; m_cur := m_cur m;
     m_empty := m_empty m; m_tr := m_tr m |}.

Definition is_none {A} (o : option A) : bool := match o with None => true | _ => false end.

(** Dictionaries::find, keyed by Language (pointer) equality *)
Fixpoint cache_find (l : language) (c : list (language * ptr)) : option ptr :=
  match c with
  | [] => None
  | (k, p) :: c' => if lang_eqb l k then Some p else cache_find l c'
  end.

(** new Dictionary(charset); dictionaries[language] = dict;
    dictionary_manager.cpp:117-119 (only reached when language is not cached) *)
Definition alloc (m : manager) (l : language) : manager :=
  {| m_heap := (m_next m, new_dictionary (m_charset m)) :: m_heap m; m_next := S (m_next m);
     m_freed := m_freed m; m_cache := m_cache m ++ [(l, m_next m)]; m_path := m_path m;
     m_charset := m_charset m; m_fuzzy := m_fuzzy m; m_lang := m_lang m; m_cur := m_cur m;
     m_empty := m_empty m; m_tr := m_tr m |}.

(** delete p: undefined if p is not live (double delete) *)
Definition delete (p : ptr) : M manager unit :=
  fun m => match heap_get (m_heap m) p with
           | None => (Ub UbPointer, m)
           | Some _ =>
               (Ret tt, {| m_heap := List.filter (fun e => negb (Nat.eqb p (fst e))) (m_heap m);
                           m_next := m_next m; m_freed := m_freed m ++ [p];
                           m_cache := m_cache m; m_path := m_path m; m_charset := m_charset m;
                           m_fuzzy := m_fuzzy m; m_lang := m_lang m; m_cur := m_cur m;
                           m_empty := m_empty m; m_tr := m_tr m |})
           end.

Local Open Scope mon_scope.

Fixpoint delete_all (c : list (language * ptr)) : M manager unit :=
  match c with
  | [] => mret tt
  | (_, p) :: c' => delete p;; delete_all c'
  end.

(** DictionaryManager::clear_cache, dictionary_manager.cpp:69-79 *)
Definition clear_cache : M manager unit :=
  c <- mget m_cache;;
  delete_all c;;
  mmod (fun m => {| m_heap := m_heap m; m_next := m_next m; m_freed := m_freed m; m_cache := [];
                    m_path := m_path m; m_charset := m_charset m; m_fuzzy := m_fuzzy m;
                    m_lang := m_lang m; m_cur := None; m_empty := m_empty m; m_tr := m_tr m |}).

(** ~DictionaryManager, dictionary_manager.cpp:61-67 *)
Definition destroy_manager : M manager unit :=
  c <- mget m_cache;; delete_all c.

Definition dot_po : bytes := bs ".po".

(** has_suffix, dictionary_manager.cpp:36-42 *)
Definition has_suffix (lhs rhs : bytes) : bool :=
  if length lhs <? length rhs then false
  else bytes_eqb (skipn (length lhs - length rhs) lhs) rhs.

(** the loop of convertFilename2Language, dictionary_manager.cpp:279-294 *)
Fixpoint upcase_country (strict found : bool) (s : bytes) : outcome bytes :=
  match s with
  | [] => Ret []
  | c :: s' =>
      if found then
        if strict && hi c then Ub UbCtype
        else if negb (isalpha c) then Ret s
        else omap (cons (toupper c)) (upcase_country strict true s')
      else omap (cons c) (upcase_country strict (byte_eqb c c_us) s')
  end.

(** DictionaryManager::convertFilename2Language, dictionary_manager.cpp:271-296 *)
Definition convertFilename2Language (strict : bool) (s_in : bytes) : outcome bytes :=
  match substr s_in (sub64 (size s_in) 3) 3 with
  | None => Exn ExOutOfRange
  | Some suf =>
      let s := if bytes_eqb suf dot_po then substr s_in 0 (sub64 (size s_in) 3) else Some s_in in
      match s with
      | None => Exn ExOutOfRange
      | Some s => upcase_country strict false s
      end
  end.

Definition emit_m (e : list event) : M manager unit := mmod (fun m => upd_tr m (m_tr m ++ e)).

Section Manager.
  Variable cf : config.
  Variable fs : file_system.

  (** one iteration of the file loop, dictionary_manager.cpp:128-151 *)
  Definition consider (lang : language) (best : bytes * Z) (filename : bytes) : M manager (bytes * Z) :=
    if has_suffix filename dot_po then
      stem <- mlift (convertFilename2Language (cf_strict cf) filename);;
      po <- mlift (from_env (cf_ndebug cf) stem);;
      if is_none po then
        emit_m [EvLog (log_warning (filename ++ bs ": warning: ignoring, unknown language"))];; mret best
      else
        let score := lang_match lang po in
        mret (if (snd best <? score)%Z then (filename, score) else best)
    else mret best.

  Fixpoint best_file (lang : language) (best : bytes * Z) (files : list bytes) : M manager (bytes * Z) :=
    match files with
    | [] => mret best
    | f :: files' => b <- consider lang best f;; best_file lang b files'
    end.

  (** e.what(): only std::runtime_error's text is specified by the code *)
  Definition what (e : exn) : bytes :=
    match e with ExRuntime w => w | _ => bs "" end.

  Definition is_std (e : exn) : bool := match e with ExPo => false | _ => true end.

  (** opening and parsing one file into dictionary [id], dictionary_manager.cpp:153-173 *)
  Definition load_file (id : ptr) (pofile : bytes) : M manager unit :=
    fun m =>
      let failed e m := (Ret tt, upd_tr m (m_tr m ++
             [EvLog (log_error (bs "error: failure parsing: " ++ pofile)); EvLog (log_error (what e))])) in
      match fs_file fs pofile with
      | Ret None => (Ret tt, upd_tr m (m_tr m ++ [EvLog (log_error (bs "error: failure opening: " ++ pofile))]))
      | Ret (Some i) =>
          match heap_get (m_heap m) id with
          | None => (Ub UbPointer, m)
          | Some d =>
              let r := po_parse cf pofile i d in
              let m' := upd_tr (upd_heap m (heap_set (m_heap m) id (pr_dict r))) (m_tr m ++ pr_trace r) in
              match pr_outcome r with
              | Exn e => if is_std e then failed e m' else (Exn e, m')
              | o => (o, m')
              end
          end
      | Exn e => if is_std e then failed e m else (Exn e, m)
      | Ub u => (Ub u, m)
      | AssertFail => (AssertFail, m)
      | OutOfFuel => (OutOfFuel, m)
      end.

  (** one directory of the search path, dictionary_manager.cpp:121-174 *)
  Definition load_dir (lang : language) (id : ptr) (p : bytes) : M manager unit :=
    files <- mlift (fs_dir fs p);;
    best <- best_file lang ([], 0%Z) files;;
    if is_nil (fst best) then mret tt
    else load_file id (p ++ bs "/" ++ fst best).

  Fixpoint load_dirs (lang : language) (id : ptr) (ps : list bytes) : M manager unit :=
    match ps with
    | [] => mret tt
    | p :: ps' => load_dir lang id p;; load_dirs lang id ps'
    end.

  Definition set_fallback (id fb : ptr) : M manager unit :=
    fun m => match heap_get (m_heap m) id with
             | None => (Ub UbPointer, m)
             | Some d => (Ret tt, upd_heap m (heap_set (m_heap m) id (add_fallback d (Some fb))))
             end.

  (** DictionaryManager::get_dictionary(const Language&), dictionary_manager.cpp:102-183.
      [depth] bounds the recursion of line 179 (2 suffices, proved). *)
  Fixpoint get_dictionary_lang (depth : nat) (lang : language) : M manager ptr :=
    match depth with
    | O => mfail OutOfFuel
    | S dp =>
        if negb (cf_ndebug cf) && is_none lang then mfail AssertFail
        else
          c <- mget m_cache;;
          match cache_find lang c with
          | Some p => mret p
          | None =>
              id <- mget m_next;;
              mmod (fun m => alloc m lang);;
              path <- mget m_path;;
              load_dirs lang id (rev path);;
              if is_nil (get_country lang) then mret id
              else
                base <- mlift (from_spec (cf_ndebug cf) (get_language lang) [] []);;
                fb <- get_dictionary_lang dp base;;
                set_fallback id fb;;
                mret id
          end
    end.

  (** A returned Dictionary&: the member empty_dict or a heap dictionary. *)
  Inductive dict_ref := RefEmpty | RefHeap (p : ptr).

  Definition depth0 : nat := 2.

  (** DictionaryManager::get_dictionary(), dictionary_manager.cpp:81-100 *)
  Definition get_dictionary : M manager dict_ref :=
    cur <- mget m_cur;;
    match cur with
    | Some p => mret (RefHeap p)
    | None =>
        l <- mget m_lang;;
        if is_none l then mret RefEmpty
        else
          p <- get_dictionary_lang depth0 l;;
          mmod (fun m => upd_lang m (m_lang m) (Some p));;
          mret (RefHeap p)
    end.

  (** std::set<Language>::insert *)
  Fixpoint set_insert (l : language) (s : list language) : list language :=
    match s with
    | [] => [l]
    | x :: s' => if lang_ltb l x then l :: s
                 else if lang_ltb x l then x :: set_insert l s'
                 else s
    end.

  (** the loops of get_languages, dictionary_manager.cpp:190-201 *)
  Fixpoint langs_of_files (files : list bytes) (acc : list language) : outcome (list language) :=
    match files with
    | [] => Ret acc
    | f :: files' =>
        if has_suffix f dot_po then
          match substr f 0 (sub64 (size f) 3) with
          | None => Exn ExOutOfRange
          | Some stem => obind (from_env (cf_ndebug cf) stem)
                               (fun l => langs_of_files files' (set_insert l acc))
          end
        else langs_of_files files' acc
    end.

  Fixpoint langs_of_dirs (ps : list bytes) (acc : list language) : outcome (list language) :=
    match ps with
    | [] => Ret acc
    | p :: ps' => obind (fs_dir fs p) (fun files =>
                  obind (langs_of_files files acc) (langs_of_dirs ps'))
    end.

  (** DictionaryManager::get_languages, dictionary_manager.cpp:185-203 *)
  Definition get_languages : M manager (list language) :=
    p <- mget m_path;; mlift (langs_of_dirs p []).

  (** set_language, dictionary_manager.cpp:205-213 *)
  Definition set_language (l : language) : M manager unit :=
    mmod (fun m => if negb (lang_eqb (m_lang m) l) then upd_lang m l None else m).

  (** set_charset, dictionary_manager.cpp:221-226 *)
  Definition set_charset (c : bytes) : M manager unit :=
    clear_cache;; mmod (fun m => upd_charset m c).

  (** set_use_fuzzy, dictionary_manager.cpp:228-233 *)
  Definition set_use_fuzzy (b : bool) : M manager unit :=
    clear_cache;; mmod (fun m => upd_fuzzy m b).

  (** add_directory, dictionary_manager.cpp:241-251 *)
  Definition add_directory (p : bytes) (precedence : bool) : M manager unit :=
    path <- mget m_path;;
    if existsb (bytes_eqb p) path then mret tt
    else
      clear_cache;;
      mmod (fun m => upd_path m (if precedence then p :: m_path m else m_path m ++ [p])).

  (** search_path.erase(it): first occurrence *)
  Fixpoint erase (p : bytes) (l : list bytes) : list bytes :=
    match l with
    | [] => []
    | x :: l' => if bytes_eqb p x then l' else x :: erase p l'
    end.

  (** remove_directory, dictionary_manager.cpp:253-261 *)
  Definition remove_directory (p : bytes) : M manager unit :=
    path <- mget m_path;;
    if existsb (bytes_eqb p) path then
      clear_cache;; mmod (fun m => upd_path m (erase p (m_path m)))
    else mret tt.

  (** The public interface as one step function. *)
  Inductive mop :=
  | OpSetLanguage (l : language)
  | OpSetCharset (c : bytes)
  | OpSetUseFuzzy (b : bool)
  | OpAddDirectory (p : bytes) (precedence : bool)
  | OpRemoveDirectory (p : bytes)
  | OpGetDictionary
  | OpGetDictionaryLang (l : language)
  | OpGetLanguages
  | OpGetLanguage
  | OpGetUseFuzzy.

  Inductive mout :=
  | OutUnit
  | OutRef (r : dict_ref)
  | OutLangs (l : list language)
  | OutLang (l : language)
  | OutBool (b : bool).

  Definition mmap {S A B} (f : A -> B) (m : M S A) : M S B := x <- m;; mret (f x).

  Definition mstep (op : mop) : M manager mout :=
    match op with
    | OpSetLanguage l => mmap (fun _ => OutUnit) (set_language l)
    | OpSetCharset c => mmap (fun _ => OutUnit) (set_charset c)
    | OpSetUseFuzzy b => mmap (fun _ => OutUnit) (set_use_fuzzy b)
    | OpAddDirectory p pr => mmap (fun _ => OutUnit) (add_directory p pr)
    | OpRemoveDirectory p => mmap (fun _ => OutUnit) (remove_directory p)
    | OpGetDictionary => mmap OutRef get_dictionary
    | OpGetDictionaryLang l => mmap (fun p => OutRef (RefHeap p)) (get_dictionary_lang depth0 l)
    | OpGetLanguages => mmap OutLangs get_languages
    | OpGetLanguage => mmap OutLang (mget m_lang)          (* dictionary_manager.cpp:215-219 *)
    | OpGetUseFuzzy => mmap OutBool (mget m_fuzzy)         (* dictionary_manager.cpp:235-239 *)
    end.
End Manager.

(** A client session: a list of operations, each with the file system as it is at
    that moment. Exceptions propagate to the client, who carries on. *)
Definition mrun (cf : config) (ops : list (file_system * mop)) (m : manager) : manager :=
  fold_left (fun m o => snd (mstep cf (fst o) (snd o) m)) ops m.

(** The object a reference denotes; [None] if it is dangling. *)
Definition deref (m : manager) (r : dict_ref) : option dictionary :=
  match r with RefEmpty => Some (m_empty m) | RefHeap p => heap_get (m_heap m) p end.
