(** DictionaryManager calls that are interrupted by the application's own code.

    While it loads, the library runs code of the application: the FileSystem it was given
    (filesystem->open_directory and open_file, dictionary_manager.cpp:123,158 and 191) and
    the log callbacks (log_stream.hpp, called by every message logged while loading).
    Nothing stops that code from calling the same manager. Here every such point is an
    interruption at which arbitrary code [env] may replace the state of the manager.

    Simplified: the interrupting code returns normally (it does not throw); the files do not
    change during one call; a parse is interrupted between its calls on the dictionary, at
    places chosen by [cuts] (any places: more than the messages really are), and its events
    are recorded when it ends. *)
From Verif.Model Require Import Base Log PluralForms Dictionary IConv Language Stream PoParser Manager.
Local Open Scope list_scope.

(** where the application's code runs *)
Inductive point :=
| AtDir (p : bytes)        (* inside open_directory(p), dictionary_manager.cpp:123,191 *)
| AtWarning (f : bytes)    (* the "unknown language" warning, dictionary_manager.cpp:139 *)
| AtOpen (name : bytes)    (* inside open_file(name), dictionary_manager.cpp:158 *)
| AtMessage (name : bytes) (remaining : nat)
                           (* a message logged while name is parsed, dictionary_manager.cpp:165;
                              remaining: how many calls on the dictionary the parser has yet to make *)
| AtError (name : bytes).  (* the error messages of dictionary_manager.cpp:161,170,171 *)

(** the manager, the number of interruptions so far, and (ghost) what each one saw *)
Record ist := { i_m : manager; i_n : nat; i_seen : list (point * manager) }.
Definition start_ist (m : manager) : ist := {| i_m := m; i_n := 0; i_seen := [] |}.

Definition ilift {A} (f : M manager A) : M ist A :=
  fun s => let (o, m) := f (i_m s) in (o, {| i_m := m; i_n := i_n s; i_seen := i_seen s |}).

(** [const Language& language], dictionary_manager.cpp:103: either the caller's object,
    or - when get_dictionary() calls it, line 92 - the member current_language itself. *)
Inductive lang_arg := Given (l : language) | Member.
Definition arg_lang (a : lang_arg) (s : ist) : language :=
  match a with Given l => l | Member => m_lang (i_m s) end.

(** a call on *dict (line 165): undefined if the dictionary has been deleted *)
Definition write_calls (id : ptr) (cs : list dict_call) : M manager unit :=
  fun m => match cs with
           | [] => (Ret tt, m)
           | _ => match heap_get (m_heap m) id with
                  | None => (Ub UbPointer, m)
                  | Some d => (Ret tt, upd_heap m (heap_set (m_heap m) id (fold_left apply_call cs d)))
                  end
           end.

Local Open Scope mon_scope.

Section Reentrant.
  Variable cf : config.
  Variable fs : file_system.
  Variable env : nat -> point -> manager -> manager.
  Variable cuts : nat -> list nat.

  Definition interrupt (pt : point) : M ist unit :=
    fun s => (Ret tt, {| i_m := env (i_n s) pt (i_m s); i_n := S (i_n s); i_seen := i_seen s ++ [(pt, i_m s)] |}).

  (** one iteration of the file loop, dictionary_manager.cpp:128-151 *)
  Definition iconsider (a : lang_arg) (best : bytes * Z) (filename : bytes) : M ist (bytes * Z) :=
    if has_suffix filename dot_po then
      stem <- mlift (convertFilename2Language (cf_strict cf) filename);;
      po <- mlift (from_env (cf_ndebug cf) stem);;
      if is_none po then
        ilift (emit_m [EvLog (log_warning (filename ++ bs ": warning: ignoring, unknown language"))]);;
        interrupt (AtWarning filename);; mret best
      else
        lang <- mget (arg_lang a);;
        let score := lang_match lang po in
        mret (if (snd best <? score)%Z then (filename, score) else best)
    else mret best.

  Fixpoint ibest_file (a : lang_arg) (best : bytes * Z) (files : list bytes) : M ist (bytes * Z) :=
    match files with
    | [] => mret best
    | f :: files' => b <- iconsider a best f;; ibest_file a b files'
    end.

  (** the calls POParser::parse makes on *dict, with interruptions in between *)
  Fixpoint iwrites (id : ptr) (name : bytes) (ks : list nat) (cs : list dict_call) : M ist unit :=
    match ks with
    | [] => ilift (write_calls id cs)
    | k :: ks' =>
        ilift (write_calls id (firstn k cs));;
        interrupt (AtMessage name (length (skipn k cs)));;
        iwrites id name ks' (skipn k cs)
    end.

  (** opening and parsing one file, dictionary_manager.cpp:153-173 *)
  Definition ifailed (pofile : bytes) (e : exn) : M ist unit :=
    ilift (emit_m [EvLog (log_error (bs "error: failure parsing: " ++ pofile))]);;
    interrupt (AtError pofile);;
    ilift (emit_m [EvLog (log_error (what e))]);;
    interrupt (AtError pofile).

  Definition iload_file (id : ptr) (pofile : bytes) : M ist unit :=
    interrupt (AtOpen pofile);;
    match fs_file fs pofile with
    | Ret None =>
        ilift (emit_m [EvLog (log_error (bs "error: failure opening: " ++ pofile))]);;
        interrupt (AtError pofile)
    | Ret (Some i) =>
        live <- mget (fun s => heap_get (m_heap (i_m s)) id);;
        match live with
        | None => mfail (Ub UbPointer)
        | Some d =>
            let r := po_parse cf pofile i d in
            n <- mget i_n;;
            iwrites id pofile (cuts n) (pr_calls r);;
            ilift (emit_m (pr_trace r));;
            match pr_outcome r with
            | Exn e => if is_std e then ifailed pofile e else mlift (Exn e)
            | o => mlift o
            end
        end
    | Exn e => if is_std e then ifailed pofile e else mlift (Exn e)
    | Ub u => mlift (Ub u)
    | AssertFail => mlift AssertFail
    | OutOfFuel => mlift OutOfFuel
    end.

  (** using the iterators into search_path (lines 121, 123, 155, 190, 191): undefined if
      the deque has changed meanwhile - push_back and push_front invalidate all iterators
      of a deque. (erase at one of its ends leaves the others valid; here every change
      counts, but not one that has been undone: comparing contents, the model cannot see
      it.) *)
  Definition icheck (path : list bytes) : M ist unit :=
    now_path <- mget (fun s => m_path (i_m s));;
    if strs_eqb now_path path then mret tt else mfail (Ub UbPointer).

  (** one directory of the search path, dictionary_manager.cpp:121-174 *)
  Definition iload_dir (a : lang_arg) (id : ptr) (path : list bytes) (p : bytes) : M ist unit :=
    interrupt (AtDir p);;
    files <- mlift (fs_dir fs p);;
    best <- ibest_file a ([], 0%Z) files;;
    (if is_nil (fst best) then mret tt
     else icheck path;; iload_file id (p ++ bs "/" ++ fst best));;
    icheck path.

  Fixpoint iload_dirs (a : lang_arg) (id : ptr) (path ps : list bytes) : M ist unit :=
    match ps with
    | [] => mret tt
    | p :: ps' => iload_dir a id path p;; iload_dirs a id path ps'
    end.

  (** DictionaryManager::get_dictionary(const Language&), dictionary_manager.cpp:102-183 *)
  Fixpoint iget (depth : nat) (a : lang_arg) : M ist ptr :=
    match depth with
    | O => mfail OutOfFuel
    | S dp =>
        lang <- mget (arg_lang a);;
        if negb (cf_ndebug cf) && is_none lang then mfail AssertFail
        else
          c <- mget (fun s => m_cache (i_m s));;
          match cache_find lang c with
          | Some p => mret p
          | None =>
              id <- mget (fun s => m_next (i_m s));;
              ilift (mmod (fun m => alloc m lang));;
              path <- mget (fun s => m_path (i_m s));;
              iload_dirs a id path (rev path);;
              lang2 <- mget (arg_lang a);;
              if is_nil (get_country lang2) then mret id
              else
                base <- mlift (from_spec (cf_ndebug cf) (get_language lang2) [] []);;
                fb <- iget dp (Given base);;
                ilift (set_fallback id fb);;
                mret id
          end
    end.

  (** DictionaryManager::get_dictionary(), dictionary_manager.cpp:81-100: line 92 passes
      the member current_language by reference, and stores the result in current_dict. *)
  Definition iget_dictionary : M ist dict_ref :=
    cur <- mget (fun s => m_cur (i_m s));;
    match cur with
    | Some p => mret (RefHeap p)
    | None =>
        l <- mget (fun s => m_lang (i_m s));;
        if is_none l then mret RefEmpty
        else
          p <- iget depth0 Member;;
          ilift (mmod (fun m => upd_lang m (m_lang m) (Some p)));;
          mret (RefHeap p)
    end.

  (** DictionaryManager::get_languages, dictionary_manager.cpp:185-203 *)
  Fixpoint ilangs_of_dirs (path ps : list bytes) (acc : list language) : M ist (list language) :=
    match ps with
    | [] => mret acc
    | p :: ps' =>
        interrupt (AtDir p);;
        files <- mlift (fs_dir fs p);;
        acc' <- mlift (langs_of_files cf files acc);;
        icheck path;;
        ilangs_of_dirs path ps' acc'
    end.
  Definition iget_languages : M ist (list language) :=
    p <- mget (fun s => m_path (i_m s));; ilangs_of_dirs p p [].

  (** The public interface. Only these three run code of the application. *)
  Definition istep (op : mop) : M ist mout :=
    match op with
    | OpGetDictionary => mmap OutRef iget_dictionary
    | OpGetDictionaryLang l => mmap (fun p => OutRef (RefHeap p)) (iget depth0 (Given l))
    | OpGetLanguages => mmap OutLangs iget_languages
    | _ => ilift (mstep cf fs op)
    end.
End Reentrant.
