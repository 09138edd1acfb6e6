(** What a dictionary is for its users: a finite map from (optional context, msgid)
    to the list of translated forms, plus a plural rule. *)
From Verif.Model Require Import Base PluralForms Dictionary.
Local Open Scope list_scope.

Definition key := (option bytes * bytes)%type.
Definition catalogue := key -> option (list bytes).

Definition key_eq_dec (a b : key) : {a = b} + {a <> b}.
Proof. repeat decide equality. Defined.

Definition update (m : catalogue) (k : key) (v : list bytes) : catalogue :=
  fun k' => if key_eq_dec k' k then Some v else m k'.

Definition op_key (op : add_op) : key :=
  match op with AddSingular c i _ => (c, i) | AddPlural c i _ _ => (c, i) end.

(** A singular add replaces form 0 and keeps the other forms; a plural add replaces
    the whole list. *)
Definition new_forms (old : option (list bytes)) (op : add_op) : list bytes :=
  match op with
  | AddSingular _ _ s => s :: match old with Some (_ :: rest) => rest | _ => [] end
  | AddPlural _ _ _ forms => forms
  end.

Definition spec_add (m : catalogue) (op : add_op) : catalogue :=
  update m (op_key op) (new_forms (m (op_key op)) op).

(** Client calls that change a dictionary. *)
Inductive client_call := Add (op : add_op) | SetPluralForms (p : plural_forms).

Definition spec_call (st : catalogue * plural_forms) (c : client_call) : catalogue * plural_forms :=
  match c with
  | Add op => (spec_add (fst st) op, snd st)
  | SetPluralForms p => (fst st, p)
  end.

Definition spec_history (h : list client_call) : catalogue * plural_forms :=
  fold_left spec_call h (fun _ => None, pf_none).

(** Answers. *)
Definition spec_translate (m : catalogue) (k : key) : bytes :=
  match m k with Some (f :: _) => f | _ => snd k end.

Definition by_count (msgid msgid_plural : bytes) (n : Z) : bytes :=
  if (n =? 1)%Z then msgid else msgid_plural.

Definition spec_translate_plural (m : catalogue) (p : plural_forms) (k : key)
           (msgid_plural : bytes) (n : Z) : bytes :=
  match m k with
  | None => by_count (snd k) msgid_plural n
  | Some forms =>
      match nth_error forms (Z.to_nat (get_plural p n)) with
      | None => snd k
      | Some [] => by_count (snd k) msgid_plural n
      | Some f => f
      end
  end.

(** The abstract content of a dictionary. *)
Definition lookup (d : dictionary) (k : key) : option (list bytes) :=
  match fst k with
  | None => assoc (snd k) (d_entries d)
  | Some c => match assoc c (d_ctxt d) with Some es => assoc (snd k) es | None => None end
  end.

(** The same calls on a real dictionary. *)
Definition run_call (d : dictionary) (c : client_call) : dictionary :=
  match c with
  | Add op => fst (add_translation d op)
  | SetPluralForms p => set_plural_forms d p
  end.
Definition run_history (d : dictionary) (h : list client_call) : dictionary :=
  fold_left run_call h d.

(** The translation of [msgid] a dictionary holds itself (context-free). *)
Definition own_translation (d : dictionary) (msgid : bytes) : option bytes :=
  match assoc msgid (d_entries d) with Some (f :: _) => Some f | _ => None end.

(** [links h d d']: the fallback of [d] is the live dictionary [d']. *)
Definition links (h : heap) (d d' : dictionary) : Prop :=
  d_has_fallback d = true /\ exists p, d_fallback d = Some p /\ heap_get h p = Some d'.

(** [path h d ds d']: following fallbacks from [d] one meets exactly [ds] (starting
    with [d]) and arrives at [d']. *)
Inductive path (h : heap) : dictionary -> list dictionary -> dictionary -> Prop :=
| path_nil : forall d, path h d [] d
| path_cons : forall d d1 ds d', links h d d1 -> path h d1 ds d' -> path h d (d :: ds) d'.

(** The warning an add that overwrites logs: the key, then both values (for a
    context-free singular add the new value comes first, otherwise the old one). *)
Definition quoted (s : bytes) : bytes := bs "'" ++ s ++ bs "'".
Fixpoint listed (l : list bytes) : bytes :=
  match l with
  | [] => []
  | [s] => quoted s
  | s :: l' => quoted s ++ bs ", " ++ listed l'
  end.
Definition collision_text (old : list bytes) (op : add_op) : bytes :=
  bs "collision in add_translation: " ++
  match op with
  | AddSingular None i s => listed [i] ++ bs " -> " ++ quoted s ++ bs " vs " ++ quoted (hd [] old)
  | AddSingular (Some c) i s => listed [c; i] ++ bs " -> " ++ quoted (hd [] old) ++ bs " vs " ++ quoted s
  | AddPlural None i pl v => listed [i; pl] ++ bs " -> [" ++ listed old ++ bs "] vs [" ++ listed v ++ bs "]"
  | AddPlural (Some c) i pl v => listed [c; i; pl] ++ bs " -> [" ++ listed old ++ bs "] vs [" ++ listed v ++ bs "]"
  end.

(** The dictionaries of a chain that are asked in vain before one answers. *)
Fixpoint asked_in_vain (ds : list dictionary) (msgid : bytes) : nat :=
  match ds with
  | [] => 0
  | d :: ds' => match own_translation d msgid with Some _ => 0 | None => S (asked_in_vain ds' msgid) end
  end.

(** First translation found in a list of dictionaries. *)
Fixpoint first_translation (ds : list dictionary) (msgid : bytes) : bytes :=
  match ds with
  | [] => msgid
  | d :: ds' => match own_translation d msgid with Some t => t | None => first_translation ds' msgid end
  end.
