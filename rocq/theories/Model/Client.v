(** A program that uses a DictionaryManager and also changes the dictionaries it gets from
    it: get_dictionary returns a non-const Dictionary& (dictionary_manager.hpp:70-75), on
    which every member of Dictionary and POParser::parse can be called.

    Simplifications: the target of addFallback is null or a dictionary of the manager's
    cache, not the manager's own empty dictionary nor a Dictionary of the program's own. *)
From Verif.Model Require Import Base Log PluralForms Dictionary IConv Language Stream PoParser Manager Owner.
Local Open Scope list_scope.

(** The ways a program can change a dictionary. *)
Inductive change :=
| ChAdd (op : add_op)                              (* add_translation, dictionary.hpp:84-95 *)
| ChPlural (p : plural_forms)                      (* set_plural_forms, dictionary.hpp:60 *)
| ChFallback (q : option ptr)                      (* addFallback, dictionary.hpp:109-113 *)
| ChForeach (f : bytes -> list bytes -> list bytes)               (* foreach, dictionary.hpp:97-107 *)
| ChForeachCtxt (f : bytes -> bytes -> list bytes -> list bytes)  (* foreach_ctxt, dictionary.hpp:115-128 *)
| ChParse (filename : bytes) (i : istream).        (* POParser::parse, po_parser.hpp:70 *)

(** outcome, the dictionary afterwards, and what is logged *)
Definition do_change (cf : config) (c : change) (d : dictionary) : outcome unit * dictionary * list event :=
  match c with
  | ChAdd op => (Ret tt, fst (add_translation d op), List.map EvLog (snd (add_translation d op)))
  | ChPlural p => (Ret tt, set_plural_forms d p, [])
  | ChFallback q => (Ret tt, add_fallback d q, [])
  | ChForeach f => (Ret tt, foreach_assign f d, [])
  | ChForeachCtxt f => (Ret tt, foreach_ctxt_assign f d, [])
  | ChParse fn i => let r := po_parse cf fn i d in (pr_outcome r, pr_dict r, pr_trace r)
  end.

(** One step of the program: a call on the manager, or a change of a dictionary. *)
Inductive cop :=
| CallManager (op : mop)
| Change (r : dict_ref) (c : change).

Definition upd_empty (m : manager) (d : dictionary) : manager :=
  {| m_heap := m_heap m; m_next := m_next m; m_freed := m_freed m; m_cache := m_cache m; m_path := m_path m;
     m_charset := m_charset m; m_fuzzy := m_fuzzy m; m_lang := m_lang m; m_cur := m_cur m;
     m_empty := d; m_tr := m_tr m |}.

(** storing the dictionary a reference denotes *)
Definition store (m : manager) (r : dict_ref) (d : dictionary) : manager :=
  match r with
  | RefEmpty => upd_empty m d
  | RefHeap p => upd_heap m (heap_set (m_heap m) p d)
  end.

(** A change through a dangling reference is undefined. *)
Definition cstep (cf : config) (fs : file_system) (op : cop) (m : manager) : outcome (option mout * list event) * manager :=
  match op with
  | CallManager op =>
      let (o, m') := mstep cf fs op m in (omap (fun x => (Some x, [])) o, m')
  | Change r c =>
      match deref m r with
      | None => (Ub UbPointer, m)
      | Some d => let '(o, d', ev) := do_change cf c d in (omap (fun _ => (None, ev)) o, store m r d')
      end
  end.

(** A session; exceptions propagate to the program, which carries on. *)
Definition crun (cf : config) (ops : list (file_system * cop)) (m : manager) : manager :=
  fold_left (fun m o => snd (cstep cf (fst o) (snd o) m)) ops m.
