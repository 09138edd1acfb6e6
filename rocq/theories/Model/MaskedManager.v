(** DictionaryManager on a FileSystem (file_system.hpp:29-36) whose open_file returns streams with
    exception masks: [mk f] is the mask of the stream for the file f. Manager.v is the manager on
    streams without masks; here are again those functions of it (with the prefix x_) that parse files,
    directly or not. *)
From Verif.Model Require Import Base Log PluralForms Dictionary IConv Language Stream PoParser Manager Masked.
Local Open Scope list_scope.
Local Open Scope mon_scope.

Section MaskedManager.
  Variable cf : config.
  Variable fs : file_system.
  Variable mk : bytes -> mask.

  (** dictionary_manager.cpp:153-173: std::ios_base::failure is a std::exception *)
  Definition x_load_file (id : ptr) (pofile : bytes) : M manager unit :=
    fun m =>
      let failed e m := (Ret tt, upd_tr m (m_tr m ++
             [EvLog (log_error (bs "error: failure parsing: " ++ pofile)); EvLog (log_error (what e))])) in
      match fs_file fs pofile with
      | Ret None => (Ret tt, upd_tr m (m_tr m ++ [EvLog (log_error (bs "error: failure opening: " ++ pofile))]))
      | Ret (Some i) =>
          match heap_get (m_heap m) id with
          | None => (Ub UbPointer, m)
          | Some d =>
              let r := x_po_parse (mk pofile) cf pofile i d in
              let m' := upd_tr (upd_heap m (heap_set (m_heap m) id (pr_dict r))) (m_tr m ++ pr_trace r) in
              match pr_outcome r with
              | Exn e => if is_std e then failed e m' else (Exn e, m')
              | o => (o, m')
              end
          end
      | Exn e => if is_std e then failed e m else (Exn e, m)
      | Ub u => (Ub u, m)
      | AssertFail => (AssertFail, m)
      | OutOfFuel => (OutOfFuel, m)
      end.

  (** dictionary_manager.cpp:121-174 *)
  Definition x_load_dir (lang : language) (id : ptr) (p : bytes) : M manager unit :=
    files <- mlift (fs_dir fs p);;
    best <- best_file cf lang ([], 0%Z) files;;
    if is_nil (fst best) then mret tt
    else x_load_file id (p ++ bs "/" ++ fst best).

  Fixpoint x_load_dirs (lang : language) (id : ptr) (ps : list bytes) : M manager unit :=
    match ps with
    | [] => mret tt
    | p :: ps' => x_load_dir lang id p;; x_load_dirs lang id ps'
    end.

  (** DictionaryManager::get_dictionary(const Language&), dictionary_manager.cpp:102-183 *)
  Fixpoint x_get_dictionary_lang (depth : nat) (lang : language) : M manager ptr :=
    match depth with
    | O => mfail OutOfFuel
    | S dp =>
        if negb (cf_ndebug cf) && is_none lang then mfail AssertFail
        else
          c <- mget m_cache;;
          match cache_find lang c with
          | Some p => mret p
          | None =>
              id <- mget m_next;;
              mmod (fun m => alloc m lang);;
              path <- mget m_path;;
              x_load_dirs lang id (rev path);;
              if is_nil (get_country lang) then mret id
              else
                base <- mlift (from_spec (cf_ndebug cf) (get_language lang) [] []);;
                fb <- x_get_dictionary_lang dp base;;
                set_fallback id fb;;
                mret id
          end
    end.

  (** DictionaryManager::get_dictionary(), dictionary_manager.cpp:81-100 *)
  Definition x_get_dictionary : M manager dict_ref :=
    cur <- mget m_cur;;
    match cur with
    | Some p => mret (RefHeap p)
    | None =>
        l <- mget m_lang;;
        if is_none l then mret RefEmpty
        else
          p <- x_get_dictionary_lang depth0 l;;
          mmod (fun m => upd_lang m (m_lang m) (Some p));;
          mret (RefHeap p)
    end.

  Definition x_mstep (op : mop) : M manager mout :=
    match op with
    | OpGetDictionary => mmap OutRef x_get_dictionary
    | OpGetDictionaryLang l => mmap (fun p => OutRef (RefHeap p)) (x_get_dictionary_lang depth0 l)
    | _ => mstep cf fs op
    end.
End MaskedManager.

(** A session: each call with the files and masks as they are at that moment. *)
Record situation := { si_fs : file_system; si_mask : bytes -> mask }.
Fixpoint session_outcomes (cf : config) (ops : list (situation * mop)) (m : manager) : list (outcome mout) * manager :=
  match ops with
  | [] => ([], m)
  | (si, op) :: ops' =>
      let (o, m1) := mstep cf (si_fs si) op m in let (os, m2) := session_outcomes cf ops' m1 in (o :: os, m2)
  end.
Fixpoint x_session_outcomes (cf : config) (ops : list (situation * mop)) (m : manager) : list (outcome mout) * manager :=
  match ops with
  | [] => ([], m)
  | (si, op) :: ops' =>
      let (o, m1) := x_mstep cf (si_fs si) (si_mask si) op m in let (os, m2) := x_session_outcomes cf ops' m1 in (o :: os, m2)
  end.
