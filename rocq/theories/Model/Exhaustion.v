(** DictionaryManager when what it relies on fails: memory (at any request), the file system
    (as in Manager.v, by exceptions), the parser (which may fail at any point of a file).
    dictionary_manager.cpp:69-261 once more, statement by statement.

    [e_ok n] tells whether the [n]-th request for memory is granted. A request stands for all
    allocations of one operation that either succeeds or has no effect; an operation that happens
    not to allocate is one whose request is granted. std::bad_alloc is [bad_alloc], an
    exception derived from std::exception. Assumed of the standard library: operator[] of the
    map, push_back and push_front of the deque, string::operator= and the constructors have
    no effect if they throw; inserting into a stream does not throw but may cut the text short;
    ~Log (log.cpp:59-62) is noexcept, so that a std::bad_alloc in it ends in std::terminate,
    i.e. abort(), which is what a failing assertion does too: [AssertFail].

    POParser::parse under exhaustion is an oracle: it ends in any way, having logged anything,
    after any calls on the dictionary, each of which may have failed itself (Memory.v). The
    parser touches nothing else of the manager (po_parser.cpp has the dictionary by
    reference and no manager).
    Language::from_env and Language::from_spec are parameters: with complete tables they are
    those of Language.v; see Tables.v for incomplete ones. *)
From Verif.Model Require Import Base Log PluralForms Dictionary Memory IConv Language Stream PoParser Manager Tables.
Local Open Scope list_scope.

(** what the parser does to the dictionary *)
Inductive change :=
| Done (c : dict_call)
| Failed (op : add_op) (grants : nat -> bool) (room told : bool).
Definition apply_change (d : dictionary) (c : change) : dictionary :=
  match c with
  | Done c => apply_call d c
  | Failed op grants room told => snd (fst (add_call grants room told d op))
  end.

Record env := {
  e_ok : nat -> bool;
  e_cut : nat -> nat;
  e_parse : nat -> bytes -> istream -> dictionary -> outcome unit * list change * list event }.

(** the manager, the dictionaries allocated that nothing refers to any more, and the number of
    requests made so far *)
Record xstate := { x_m : manager; x_leaks : nat; x_n : nat }.
Definition x_upd (s : xstate) (m : manager) : xstate := {| x_m := m; x_leaks := x_leaks s; x_n := x_n s |}.

Local Open Scope mon_scope.

Section Exhaustion.
  Variable cf : config.
  Variable lang_of_env : bytes -> outcome language.    (* Language::from_env(env) *)
  Variable base_lang : bytes -> outcome language.       (* Language::from_spec(language) *)
  Variable fs : file_system.
  Variable E : env.

  Definition ask : M xstate bool :=
    fun s => (Ret (e_ok E (x_n s)), {| x_m := x_m s; x_leaks := x_leaks s; x_n := S (x_n s) |}).
  Definition need : M xstate unit := g <- ask;; if g then mret tt else mfail (Exn bad_alloc).
  Definition on_m {A} (f : M manager A) : M xstate A :=
    fun s => let (o, m) := f (x_m s) in (o, x_upd s m).

  (** log_warning << ... << std::endl: Log::Log, the insertions, ~Log; log.cpp:47-68 *)
  Definition xlog (l : log_stmt) : M xstate unit :=
    need;;
    n <- mget x_n;;
    g <- ask;;
    h <- ask;;
    if h then on_m (emit_m [EvLog {| lg_level := lg_level l;
                                     lg_text := if g then lg_text l else firstn (e_cut E n) (lg_text l) |}])
    else mfail AssertFail.

  (** dictionary_manager.cpp:128-151 *)
  Definition xconsider (lang : language) (best : bytes * Z) (filename : bytes) : M xstate (bytes * Z) :=
    if has_suffix filename dot_po then
      need;;                                     (* the strings of convertFilename2Language and from_env *)
      stem <- mlift (convertFilename2Language (cf_strict cf) filename);;
      po <- mlift (lang_of_env stem);;
      if is_none po then
        xlog (log_warning (filename ++ bs ": warning: ignoring, unknown language"));; mret best
      else
        let score := lang_match lang po in
        if (snd best <? score)%Z then need;; mret (filename, score)     (* best_filename = *filename *)
        else mret best
    else mret best.
  Fixpoint xbest_file (lang : language) (best : bytes * Z) (files : list bytes) : M xstate (bytes * Z) :=
    match files with
    | [] => mret best
    | f :: files' => b <- xconsider lang best f;; xbest_file lang b files'
    end.

  Definition xparse (id : ptr) (pofile : bytes) (i : istream) : M xstate unit :=
    fun s => match heap_get (m_heap (x_m s)) id with
             | None => (Ub UbPointer, s)
             | Some d =>
                 let r := e_parse E (x_n s) pofile i d in
                 (fst (fst r),
                  {| x_m := upd_tr (upd_heap (x_m s) (heap_set (m_heap (x_m s)) id
                                      (fold_left apply_change (snd (fst r)) d))) (m_tr (x_m s) ++ snd r);
                     x_leaks := x_leaks s; x_n := S (x_n s) |})
             end.
  (** the try block and its handler, dictionary_manager.cpp:156-172 *)
  Definition xfile (id : ptr) (pofile : bytes) : M xstate unit :=
    fun s =>
      match (need;;
             i <- mlift (fs_file fs pofile);;
             match i with
             | None => xlog (log_error (bs "error: failure opening: " ++ pofile))
             | Some i => xparse id pofile i
             end) s with
      | (Exn e, s') =>
          if is_std e
          then (xlog (log_error (bs "error: failure parsing: " ++ pofile));; xlog (log_error (what e))) s'
          else (Exn e, s')
      | r => r
      end.

  (** one directory, dictionary_manager.cpp:121-174 *)
  Definition xdir (lang : language) (id : ptr) (p : bytes) : M xstate unit :=
    need;;
    files <- mlift (fs_dir fs p);;
    best <- xbest_file lang ([], 0%Z) files;;
    if is_nil (fst best) then mret tt
    else need;; xfile id (p ++ bs "/" ++ fst best).
  Fixpoint xdirs (lang : language) (id : ptr) (ps : list bytes) : M xstate unit :=
    match ps with
    | [] => mret tt
    | p :: ps' => xdir lang id p;; xdirs lang id ps'
    end.

  (** dictionaries[language] = dict; if that throws, nothing refers to *dict any more *)
  Definition xinsert (lang : language) : M xstate unit :=
    g <- ask;;
    if g then on_m (mmod (fun m => alloc m lang))
    else fun s => (Exn bad_alloc, {| x_m := x_m s; x_leaks := S (x_leaks s); x_n := x_n s |}).

  (** get_dictionary(const Language&), dictionary_manager.cpp:102-183 *)
  Fixpoint xget_lang (depth : nat) (lang : language) : M xstate ptr :=
    match depth with
    | O => mfail OutOfFuel
    | S dp =>
        if negb (cf_ndebug cf) && is_none lang then mfail AssertFail
        else
          c <- on_m (mget m_cache);;
          match cache_find lang c with
          | Some p => mret p
          | None =>
              need;;                             (* new Dictionary(charset) *)
              id <- on_m (mget m_next);;
              xinsert lang;;
              path <- on_m (mget m_path);;
              xdirs lang id (rev path);;
              need;;                             (* get_country, get_language, from_spec *)
              if is_nil (get_country lang) then mret id
              else
                base <- mlift (base_lang (get_language lang));;
                fb <- xget_lang dp base;;
                on_m (set_fallback id fb);;
                mret id
          end
    end.

  (** get_dictionary(), dictionary_manager.cpp:81-100 *)
  Definition xget : M xstate dict_ref :=
    cur <- on_m (mget m_cur);;
    match cur with
    | Some p => mret (RefHeap p)
    | None =>
        l <- on_m (mget m_lang);;
        if is_none l then mret RefEmpty
        else
          p <- xget_lang depth0 l;;
          on_m (mmod (fun m => upd_lang m (m_lang m) (Some p)));;
          mret (RefHeap p)
    end.

  (** get_languages, dictionary_manager.cpp:185-203 *)
  Fixpoint xlangs_files (files : list bytes) (acc : list language) : M xstate (list language) :=
    match files with
    | [] => mret acc
    | f :: files' =>
        if has_suffix f dot_po then
          need;;
          match substr f 0 (sub64 (size f) 3) with
          | None => mfail (Exn ExOutOfRange)
          | Some stem => l <- mlift (lang_of_env stem);; xlangs_files files' (set_insert l acc)
          end
        else xlangs_files files' acc
    end.
  Fixpoint xlangs_dirs (ps : list bytes) (acc : list language) : M xstate (list language) :=
    match ps with
    | [] => mret acc
    | p :: ps' => need;; files <- mlift (fs_dir fs p);; acc' <- xlangs_files files acc;; xlangs_dirs ps' acc'
    end.

  (** set_charset, dictionary_manager.cpp:221-226: the cache is gone when the assignment throws *)
  Definition xset_charset (c : bytes) : M xstate unit :=
    on_m clear_cache;; need;; on_m (mmod (fun m => upd_charset m c)).
  (** add_directory, dictionary_manager.cpp:241-251; likewise *)
  Definition xadd_directory (p : bytes) (precedence : bool) : M xstate unit :=
    path <- on_m (mget m_path);;
    if existsb (bytes_eqb p) path then mret tt
    else
      on_m clear_cache;; need;;
      on_m (mmod (fun m => upd_path m (if precedence then p :: m_path m else m_path m ++ [p]))).

  (** the public interface; the calls left as they are allocate nothing *)
  Definition xstep (op : mop) : M xstate mout :=
    match op with
    | OpSetCharset c => mmap (fun _ => OutUnit) (xset_charset c)
    | OpAddDirectory p pr => mmap (fun _ => OutUnit) (xadd_directory p pr)
    | OpGetDictionary => mmap OutRef xget
    | OpGetDictionaryLang l => mmap (fun p => OutRef (RefHeap p)) (xget_lang depth0 l)
    | OpGetLanguages => mmap OutLangs (path <- on_m (mget m_path);; xlangs_dirs path [])
    | op => on_m (mstep cf fs op)
    end.
End Exhaustion.

(** A manager in a process whose tables are complete. *)
Definition xcall (cf : config) (fs : file_system) (E : env) (op : mop) : M xstate mout :=
  xstep cf (from_env (cf_ndebug cf)) (fun la => from_spec (cf_ndebug cf) la [] []) fs E op.
Definition xnew (cs : bytes) : xstate := {| x_m := new_manager cs; x_leaks := 0; x_n := 0 |}.
(** A history of calls, each with the file system and the luck of that moment; exceptions
    propagate to the client, who carries on. *)
Definition xrun (cf : config) (ops : list (file_system * env * mop)) (s : xstate) : xstate :=
  fold_left (fun s o => snd (xcall cf (fst (fst o)) (snd (fst o)) (snd o) s)) ops s.
