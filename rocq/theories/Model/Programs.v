(** The two command-line programs, test/tinygettext_test.cpp and test/po_parser_test.cpp.
    (test/helloworld.cpp is input for xgettext; it is not compiled.)
    Modelled: arguments, standard output, standard error, exit status. The two streams are
    separate observations; how they interleave on a terminal is not modelled. Arguments
    contain no NUL. The stream library's own failures (closed stdout) are not modelled. A
    file is read without read errors. *)
From Verif.Model Require Import Base Log PluralForms Dictionary IConv Language Stream PoParser Manager.
Local Open Scope list_scope.
Local Open Scope mon_scope.

Record streams := { s_out : bytes; s_err : bytes }.
Definition P := M streams.
Definition start : streams := {| s_out := []; s_err := [] |}.

(** std::cout << t, std::cerr << t *)
Definition out (t : bytes) : P unit := mmod (fun s => {| s_out := s_out s ++ t; s_err := s_err s |}).
Definition err (t : bytes) : P unit := mmod (fun s => {| s_out := s_out s; s_err := s_err s ++ t |}).
(** ... << std::endl *)
Definition outln (t : bytes) : P unit := out (t ++ [c_lf]).
Definition errln (t : bytes) : P unit := err (t ++ [c_lf]).

(** What the system says: the contents of the disk, strerror(errno) after a failed open, and
    the what() of the exceptions that the standard library makes. *)
Record system := {
  sy_os : os_state;
  sy_strerror : bytes -> bytes;
  sy_what : exn -> bytes }.
Definition what_of (sy : system) (e : exn) : bytes :=
  match e with ExRuntime w => w | _ => sy_what sy e end.

(** The callbacks: number 0 is Log::default_log_callback (log.cpp:29-33), 1 is
    my_log_callback (po_parser_test.cpp:31-34). *)
Definition callback_text (cb : nat) (t : bytes) : bytes :=
  if Nat.eqb cb 0 then bs "tinygettext: " ++ t else t.
Definition logged (c : log_config) (s : log_stmt) : bytes :=
  List.concat (List.map (fun i => callback_text (fst i) (snd i)) (deliver c s)).
Definition log_all (c : log_config) (l : list log_stmt) : P unit := err (List.concat (List.map (logged c) l)).
Definition stmts (l : list event) : list log_stmt :=
  List.concat (List.map (fun e => match e with EvLog s => [s] | _ => [] end) l).

(** atoi(3): white space, a sign, digits; 0 without digits; undefined outside int *)
Fixpoint skip_space (s : bytes) : bytes :=
  match s with c :: s' => if isspace c then skip_space s' else s | [] => [] end.
Fixpoint digits (acc : Z) (s : bytes) : Z :=
  match s with
  | c :: s' => if isdigit c then digits (10 * acc + Z.of_N (code c - 48)) s' else acc
  | [] => acc
  end.
Definition atoi (s : bytes) : outcome Z :=
  let z := match skip_space s with
           | [] => 0%Z
           | c :: s' => if byte_eqb c (chr 45) then (- digits 0 s')%Z
                        else if byte_eqb c (chr 43) then digits 0 s'
                        else digits 0 (c :: s')
           end in
  if ((-2147483648 <=? z) && (z <=? 2147483647))%Z then Ret z else Ub UbRange.

Section Programs.
  Variable cf : config.
  Variable sy : system.

  (** ** test/tinygettext_test.cpp *)

  Definition logs (l : list log_stmt) : P unit := log_all log_default l.
  (** a call that answers and logs *)
  Definition answer (x : outcome bytes * list log_stmt) : P bytes := logs (snd x);; mlift (fst x).

  (** print_msg, tinygettext_test.cpp:34-41 *)
  Definition print_strings (l : list bytes) : P unit :=
    out (List.concat (List.map (fun t => t ++ [c_lf]) l)).
  Definition print_msg (e : bytes * list bytes) : P unit :=
    outln (bs "Msgid: " ++ fst e);; print_strings (snd e).
  (** print_msg_ctxt, tinygettext_test.cpp:43-51 *)
  Definition print_msg_ctxt (e : bytes * bytes * list bytes) : P unit :=
    outln (bs "Msgctxt: " ++ fst (fst e));; outln (bs "Msgid: " ++ snd (fst e));; print_strings (snd e).
  Fixpoint each {A} (f : A -> P unit) (l : list A) : P unit :=
    match l with [] => mret tt | x :: l' => f x;; each f l' end.

  (** print_usage, tinygettext_test.cpp:53-61; argv[0] is a null pointer if argc is 0 *)
  Definition print_usage (argv : list bytes) : P unit :=
    match argv with
    | [] => mfail (Ub UbPointer)
    | a :: _ =>
        outln (bs "Usage: " ++ a ++ bs " translate FILE MESSAGE");;
        outln (bs "       " ++ a ++ bs " translate FILE MESSAGE_S MESSAGE_P NUM");;
        outln (bs "       " ++ a ++ bs " directory DIRECTORY MESSAGE [LANG]");;
        outln (bs "       " ++ a ++ bs " language LANGUAGE");;
        outln (bs "       " ++ a ++ bs " language-dir DIR");;
        outln (bs "       " ++ a ++ bs " list-msgstrs FILE")
    end.

  (** read_dictionary, tinygettext_test.cpp:63-76 *)
  Definition read_dictionary (filename : bytes) : P dictionary :=
    match os_file (sy_os sy) filename with
    | None => mfail (Exn (ExRuntime (bs "Couldn't open " ++ filename)))
    | Some b =>
        let r := po_parse cf filename (stream_of b) (new_dictionary utf8) in
        logs (stmts (pr_trace r));;
        mlift (pr_outcome r);;
        mret (pr_dict r)
    end.

  (** the lines about a language, tinygettext_test.cpp:91-96, 105-109 *)
  Definition print_language (l : language) : P unit :=
    outln (bs "Env:       " ++ str l);;
    outln (bs "Name:      " ++ get_name l);;
    outln (bs "Language:  " ++ get_language l);;
    outln (bs "Country:   " ++ get_country l);;
    outln (bs "Modifier:  " ++ get_modifier l).

  (** the destructor of the program's DictionaryManager, at the end of the block *)
  Definition manager_dies (m : manager) : P unit := mlift (fst (destroy_manager m)).
  (** a call on it; an exception destroys it on its way out *)
  Definition on_manager {A} (f : M manager A) (m : manager) : P (A * manager) :=
    logs (stmts (skipn (length (m_tr m)) (m_tr (snd (f m)))));;
    match fst (f m) with
    | Ret a => mret (a, snd (f m))
    | Exn e => manager_dies (snd (f m));; mfail (Exn e)
    | Ub u => mfail (Ub u)
    | AssertFail => mfail AssertFail
    | OutOfFuel => mfail OutOfFuel
    end.
  Definition fs : file_system := unix_file_system (sy_os sy).

  (** "language-dir", tinygettext_test.cpp:82-97 *)
  Definition language_dir (dir : bytes) : P nat :=
    am <- on_manager (add_directory dir false) (new_manager utf8);;
    lm <- on_manager (get_languages cf fs) (snd am);;
    outln (bs "Number of languages: " ++ dec_N (N.of_nat (length (fst lm))));;
    each (fun l => print_language l;; outln []) (fst lm);;
    manager_dies (snd lm);;
    mret 0.

  (** "language", tinygettext_test.cpp:99-112 *)
  Definition language_mode (name : bytes) : P nat :=
    l <- mlift (from_name (cf_strict cf) (cf_ndebug cf) name);;
    (if lang_defined l then print_language l else outln (bs "not found"));;
    mret 0.

  (** "translate", tinygettext_test.cpp:113-160 *)
  Definition translate_text (file message : bytes) : P nat :=
    d <- read_dictionary file;;
    out (bs "TRANSLATION: " ++ [c_dq; c_dq; c_dq]);;
    t <- answer (translate (S (S O)) [] d message);;
    outln (t ++ [c_dq; c_dq; c_dq]);;
    mret 0.
  Definition translate_in_context (file context message : bytes) : P nat :=
    d <- read_dictionary file;;
    t <- answer (translate_ctxt (S (S O)) [] d context message);;
    outln t;;
    mret 0.
  Definition translate_number (file singular plural num : bytes) : P nat :=
    n <- mlift (atoi num);;
    d <- read_dictionary file;;
    let (t, l) := translate_plural d singular plural n in
    t <- answer (Ret t, l);;
    outln t;;
    mret 0.
  Definition translate_number_in_context (file context singular plural num : bytes) : P nat :=
    n <- mlift (atoi num);;
    d <- read_dictionary file;;
    let (t, l) := translate_ctxt_plural d context singular plural n in
    t <- answer (Ret t, l);;
    outln t;;
    mret 0.

  (** "directory", tinygettext_test.cpp:162-194. Operands of << are evaluated from left to
      right (C++17, CMakeLists.txt:72); exit() does not destroy the manager. *)
  Definition directory_report (dir message : bytes) (m : manager) : P nat :=
    outln (bs "Directory:   '" ++ dir ++ bs "'");;
    outln (bs "Message:     '" ++ message ++ bs "'");;
    let l := m_lang m in
    outln (bs "Language:    '" ++ str l ++ bs "' (name: '" ++ get_name l ++ bs "', language: '" ++ get_language l ++
           bs "', country: '" ++ get_country l ++ bs "', modifier: '" ++ get_modifier l ++ bs "')");;
    out (bs "Translation: '");;
    rm <- on_manager (get_dictionary cf fs) m;;
    match deref (snd rm) (fst rm) with
    | None => mfail (Ub UbPointer)
    | Some d =>
        t <- answer (translate (S (S (S O))) (m_heap (snd rm)) d message);;
        outln (t ++ bs "'");;
        manager_dies (snd rm);;
        mret 0
    end.
  Definition directory_mode (dir message : bytes) (lang : option bytes) : P nat :=
    am <- on_manager (add_directory dir false) (new_manager utf8);;
    match lang with
    | None => directory_report dir message (snd am)
    | Some name =>
        l <- mlift (from_name (cf_strict cf) (cf_ndebug cf) name);;
        if lang_defined l then
          bm <- on_manager (set_language l) (snd am);;
          directory_report dir message (snd bm)
        else
          outln (bs "Unknown language: " ++ name);; mret 1
    end.

  (** "list-msgstrs", tinygettext_test.cpp:195-203 *)
  Definition list_msgstrs (file : bytes) : P nat :=
    d <- read_dictionary file;;
    each print_msg (foreach d);;
    each print_msg_ctxt (foreach_ctxt d);;
    mret 0.

  (** the modes, tinygettext_test.cpp:82-207 (here by number of arguments first) *)
  Definition modes (argv : list bytes) : P nat :=
    let usage := print_usage argv;; mret 0 in
    match argv with
    | [_; mode; a] =>
        if bytes_eqb mode (bs "language-dir") then language_dir a
        else if bytes_eqb mode (bs "language") then language_mode a
        else if bytes_eqb mode (bs "list-msgstrs") then list_msgstrs a
        else usage
    | [_; mode; a; b] =>
        if bytes_eqb mode (bs "translate") then translate_text a b
        else if bytes_eqb mode (bs "directory") then directory_mode a b None
        else usage
    | [_; mode; a; b; c] =>
        if bytes_eqb mode (bs "translate") then translate_in_context a b c
        else if bytes_eqb mode (bs "directory") then directory_mode a b (Some c)
        else usage
    | [_; mode; a; b; c; d] =>
        if bytes_eqb mode (bs "translate") then translate_number a b c d else usage
    | [_; mode; a; b; c; d; e] =>
        if bytes_eqb mode (bs "translate") then translate_number_in_context a b c d e else usage
    | _ => usage
    end.

  (** main, tinygettext_test.cpp:78-213: the result is the exit status. An exception that is
      not a std::exception would leave main. *)
  Definition tinygettext_test (argv : list bytes) : P nat :=
    fun s => match modes argv s with
             | (Exn e, s') => if is_std e then (outln (bs "Exception: " ++ what_of sy e);; mret 0) s' else (Exn e, s')
             | x => x
             end.

  (** ** test/po_parser_test.cpp *)

  Definition my_log : log_config := {| lc_info := Some 1; lc_warning := Some 1; lc_error := Some 1 |}.
  (** one file, po_parser_test.cpp:50-71. Only std::runtime_error is caught. *)
  Definition check_file (argv0 file : bytes) : P unit :=
    match os_file (sy_os sy) file with
    | None => errln (argv0 ++ bs ": cannot access " ++ file ++ bs ": " ++ sy_strerror sy file)
    | Some b =>
        let r := po_parse cf file (stream_of b) (new_dictionary utf8) in
        log_all my_log (stmts (pr_trace r));;
        match pr_outcome r with
        | Exn (ExRuntime w) => outln (file ++ bs ": exception: " ++ w)
        | Exn (ExFilesystem p) => outln (file ++ bs ": exception: " ++ sy_what sy (ExFilesystem p))
        | o => mlift o
        end
    end.
  (** main, po_parser_test.cpp:38-75; main without return statement returns 0 *)
  Definition po_parser_test (argv : list bytes) : P nat :=
    match argv with
    | [] => mfail (Ub UbPointer)
    | [a] => outln (a ++ bs " FILENAME...");; mret 0
    | a :: files => each (check_file a) files;; mret 0
    end.
End Programs.
