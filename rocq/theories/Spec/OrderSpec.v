(** Vocabulary for the order in which a directory's entries are listed. *)
From Coq Require Import Permutation.
From Verif.Model Require Import Base Log Dictionary IConv Language Stream PoParser Manager.
From Verif.Spec Require Import LangSpec ManagerSpec LoadSpec.
Local Open Scope list_scope.

(** [fs'] holds the same files as [fs], but may list the entries of a directory in another order. *)
Definition reordered (fs fs' : file_system) : Prop :=
  (forall f, fs_file fs f = fs_file fs' f) /\
  forall p, match fs_dir fs p with
            | Ret files => exists files', fs_dir fs' p = Ret files' /\ Permutation files files'
            | o => fs_dir fs' p = o
            end.

(** The names fit in memory and contain, if the checks of <cctype> are on, no country that
    stops at a byte above 127. *)
Definition tidy (cf : config) (files : list bytes) : Prop :=
  forall f, In f files -> real_string f /\ (cf_strict cf = true -> forall t, f = t ++ bs ".po" -> ~ stops_at_negative t).

(** No other file of the directory fits [l] better. *)
Definition fits_best (cf : config) (l : language) (files : list bytes) (f : bytes) : Prop :=
  In f files /\ candidate cf l f /\ forall g, In g files -> (rating cf l g <= rating cf l f)%Z.
Definition decisive (cf : config) (l : language) (files : list bytes) : Prop :=
  forall f g, fits_best cf l files f -> fits_best cf l files g -> f = g.

(** The languages a client may load: those it passes, and their base languages. *)
Definition passed (op : mop) (l : language) : Prop := op = OpSetLanguage l \/ op = OpGetDictionaryLang l.
Definition wanted (cf : config) (ops : list (file_system * mop)) (l : language) : Prop :=
  exists x l0, In x ops /\ passed (snd x) l0 /\ (l = l0 \/ from_spec (cf_ndebug cf) (get_language l0) [] [] = Ret l).

(** the outcomes of the calls of a session, and the manager at its end *)
Fixpoint answers (cf : config) (ops : list (file_system * mop)) (m : manager) : list (outcome mout) * manager :=
  match ops with
  | [] => ([], m)
  | (fs, op) :: ops' => let (o, m1) := mstep cf fs op m in let (os, m2) := answers cf ops' m1 in (o :: os, m2)
  end.
