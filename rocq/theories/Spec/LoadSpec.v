(** What loading a dictionary reads and logs: files, directories, the search path. *)
From Verif.Model Require Import Base Log PluralForms Dictionary IConv Language Stream PoParser Manager.
From Verif.Spec Require Import LangSpec ParserSpec ManagerSpec.
Local Open Scope list_scope.

Definition ends_po (f : bytes) : bool := bytes_eqb (skipn (length f - 3) f) (bs ".po").

(** what is logged about one directory entry while a file is being chosen *)
Definition note (cf : config) (f : bytes) : list event :=
  match ends_po f, po_language cf f with
  | true, None => [EvLog (log_warning (f ++ bs ": warning: ignoring, unknown language"))]
  | _, _ => []
  end.
Definition notes (cf : config) (files : list bytes) : list event := List.concat (List.map (note cf) files).

(** the two lines logged when opening or parsing a file throws [e], which describes
    itself as [w]; only std::runtime_error promises what it says *)
Definition describes (e : exn) (w : bytes) : Prop := forall w', e = ExRuntime w' -> w = w'.
Definition failure (name w : bytes) : list event :=
  [EvLog (log_error (bs "error: failure parsing: " ++ name)); EvLog (log_error w)].

(** [file_reads cf fs name d o d' t]: reading file [name] into dictionary [d] leaves
    [d'] and logs [t]; an exception [e] reaches the caller iff o = Some e. *)
Inductive file_reads (cf : config) (fs : file_system) (name : bytes) (d : dictionary)
  : option exn -> dictionary -> list event -> Prop :=
| file_null : fs_file fs name = Ret None ->
    file_reads cf fs name d None d [EvLog (log_error (bs "error: failure opening: " ++ name))]
| file_open_throws e w : fs_file fs name = Exn e -> e <> ExPo -> describes e w ->
    file_reads cf fs name d None d (failure name w)
| file_open_throws_po : fs_file fs name = Exn ExPo ->
    file_reads cf fs name d (Some ExPo) d []
| file_parsed i r : fs_file fs name = Ret (Some i) -> parses_to cf name i d r -> pr_outcome r = Ret tt ->
    file_reads cf fs name d None (pr_dict r) (pr_trace r)
| file_parse_throws i r e w : fs_file fs name = Ret (Some i) -> parses_to cf name i d r -> pr_outcome r = Exn e ->
    describes e w -> file_reads cf fs name d None (pr_dict r) (pr_trace r ++ failure name w).

(** a directory entry for the wanted language code, and how well it fits *)
Definition candidate (cf : config) (l : language) (f : bytes) : Prop :=
  exists s, po_language cf f = Some s /\ ls_language s = get_language l.
Definition rating (cf : config) (l : language) (f : bytes) : Z :=
  match po_language cf f with Some s => lang_match l (Some s) | None => 0%Z end.

(** the same for directory [p] *)
Inductive dir_reads (cf : config) (fs : file_system) (l : language) (p : bytes) (d : dictionary)
  : option exn -> dictionary -> list event -> Prop :=
| dir_throws e : fs_dir fs p = Exn e -> dir_reads cf fs l p d (Some e) d []
| dir_none files : fs_dir fs p = Ret files -> (forall f, In f files -> ~ candidate cf l f) ->
    dir_reads cf fs l p d None d (notes cf files)
| dir_best before f after o d' t : fs_dir fs p = Ret (before ++ f :: after) -> candidate cf l f ->
    (forall g, In g before -> (rating cf l g < rating cf l f)%Z) ->
    (forall g, In g after -> (rating cf l g <= rating cf l f)%Z) ->
    file_reads cf fs (p ++ bs "/" ++ f) d o d' t ->
    dir_reads cf fs l p d o d' (notes cf (before ++ f :: after) ++ t).

(** and for a list of directories, first to last *)
Inductive path_reads (cf : config) (fs : file_system) (l : language)
  : list bytes -> dictionary -> option exn -> dictionary -> list event -> Prop :=
| path_nil d : path_reads cf fs l [] d None d []
| path_cons p ps d d1 t1 o d2 t2 : dir_reads cf fs l p d None d1 t1 ->
    path_reads cf fs l ps d1 o d2 t2 -> path_reads cf fs l (p :: ps) d o d2 (t1 ++ t2)
| path_stop p ps d e d1 t1 : dir_reads cf fs l p d (Some e) d1 t1 ->
    path_reads cf fs l (p :: ps) d (Some e) d1 t1.

(** returned or thrown, as opposed to crashed *)
Definition completed {A} (o : outcome A) : Prop := match o with Ret _ | Exn _ => True | _ => False end.

(** the call returned a reference to dictionary [d] *)
Definition gave (o : outcome mout) (m : manager) (d : dictionary) : Prop :=
  exists p, o = Ret (OutRef (RefHeap p)) /\ heap_get (m_heap m) p = Some d.
(** ... to the dictionary [d] with [b] as its fallback *)
Definition gave_over (o : outcome mout) (m : manager) (d b : dictionary) : Prop :=
  exists q, gave o m (add_fallback d (Some q)) /\ heap_get (m_heap m) q = Some b.

(** ** calls that do not come back *)
(** Whatever bound is put on the loops of the parser, the call exceeds it. *)
Definition hangs (cf : config) (fs : file_system) (op : mop) (m : manager) : Prop :=
  forall n, fst (mstep (with_fuel cf n) fs op m) = OutOfFuel.
(** The call comes back with [o] (returned, thrown or crashed) and leaves [m']. *)
Definition ends (cf : config) (fs : file_system) (op : mop) (m : manager) (o : outcome mout) (m' : manager) : Prop :=
  o <> OutOfFuel /\ exists N, forall n, N <= n -> mstep (with_fuel cf n) fs op m = (o, m').

(** Reading directories [ps] for [l] into [d] gets as far as file [name], opened as [i],
    with dictionary [d1] so far. *)
Definition reaches (cf : config) (fs : file_system) (l : language) (ps : list bytes) (d : dictionary)
  (name : bytes) (i : istream) (d1 : dictionary) : Prop :=
  exists before p after t1 bf f af,
    ps = before ++ p :: after /\ path_reads cf fs l before d None d1 t1 /\
    fs_dir fs p = Ret (bf ++ f :: af) /\ candidate cf l f /\
    (forall g, In g bf -> (rating cf l g < rating cf l f)%Z) /\
    (forall g, In g af -> (rating cf l g <= rating cf l f)%Z) /\
    name = p ++ bs "/" ++ f /\ fs_file fs name = Ret (Some i).
(** ... and that file is never parsed to an end. *)
Definition never_read (cf : config) (fs : file_system) (l : language) (ps : list bytes) (d : dictionary) : Prop :=
  exists name i d1, reaches cf fs l ps d name i d1 /\ diverges cf name i d1.

(** A file that cannot be opened, or whose last line - the last one delivered, if a read
    error cuts the file - is ended by a newline, or at least is no comment, no msgstr[N]
    and does not begin with a quote. *)
Definition ends_well (i : istream) : Prop :=
  is_good i = false \/ hangs_on (last_line (drop_bom (is_rest i))) = false.
Definition files_end_well (fs : file_system) : Prop :=
  forall name i, fs_file fs name = Ret (Some i) -> ends_well i.
