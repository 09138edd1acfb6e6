(** The parser's scanning functions, reduced to pure functions of the current
    line. Each monadic scanner of Model/PoParser.v is shown equal to running the
    pure result, so later proofs never deal with indices or inner-loop fuel. *)
From Verif.Model Require Import Base Log PluralForms Dictionary IConv Stream PoParser.
From Verif.Proofs Require Import BaseFacts.
Local Open Scope list_scope.
Ltac blia := idtac; lia.

(** Result of a pure scanner: warnings to print, then a value, a parse error, or
    a ctype call on a negative char. *)
Inductive lexres (A : Type) :=
| LOk (ws : list bytes) (a : A)
| LErr (ws : list bytes) (msg : bytes)
| LUb (ws : list bytes).
Arguments LOk {A} ws a. Arguments LErr {A} ws msg. Arguments LUb {A} ws.

Definition lwarn {A} (w : bytes) (r : lexres A) : lexres A :=
  match r with
  | LOk ws a => LOk (w :: ws) a | LErr ws m => LErr (w :: ws) m | LUb ws => LUb (w :: ws)
  end.

Definition lbind {A B} (r : lexres A) (f : A -> lexres B) : lexres B :=
  match r with
  | LOk ws a => match f a with
                | LOk ws' b => LOk (ws ++ ws') b
                | LErr ws' m => LErr (ws ++ ws') m
                | LUb ws' => LUb (ws ++ ws')
                end
  | LErr ws m => LErr ws m
  | LUb ws => LUb ws
  end.

(** ctype test: [None] is undefined behaviour *)
Definition pctype {A} (strict : bool) (f : byte -> A) (c : byte) : option A :=
  if strict && hi c then None else Some (f c).

Fixpoint pall_space (strict : bool) (l : bytes) : option bool :=
  match l with
  | [] => Some true
  | c :: l' => match pctype strict isspace c with
               | None => None
               | Some true => pall_space strict l'
               | Some false => Some false
               end
  end.

Definition pempty (strict : bool) (cur : bytes) : option bool :=
  match cur with
  | [] => Some true
  | c :: cur' =>
      if byte_eqb c c_hash then
        match cur' with [] => Some true | c1 :: _ => pctype strict isspace c1 end
      else pall_space strict cur
  end.

Fixpoint pscan (big5 : bool) (i : nat) (l : bytes) (out : bytes) : lexres (nat * bytes) :=
  match l with
  | [] => LErr [] (bs "unexpected end of string")
  | c :: l1 =>
      if byte_eqb c c_dq then LOk [] (i, out)
      else if big5 && big5_lead c then
        match l1 with
        | [] => LErr [] (bs "invalid big5 encoding")
        | c1 :: l2 => pscan big5 (i + 2) l2 (out ++ [c; c1])
        end
      else if byte_eqb c c_bsl then
        match l1 with
        | [] => LErr [] (bs "unexpected end of string in handling '\'")
        | c1 :: l2 =>
            match unescape c1 with
            | Some e => pscan big5 (i + 2) l2 (out ++ [e])
            | None => lwarn (bs "unhandled escape '\" ++ [c1] ++ bs "'")
                            (pscan big5 (i + 2) l2 (out ++ [c; c1]))
            end
        end
      else pscan big5 (i + 1) l1 (out ++ [c])
  end.

Fixpoint pgarbage (strict : bool) (l : bytes) : lexres unit :=
  match l with
  | [] => LOk [] tt
  | c :: l' => match pctype strict isspace c with
               | None => LUb []
               | Some true => pgarbage strict l'
               | Some false => LOk [bs "unexpected garbage after string ignoren"] tt
               end
  end.

Definition pline (strict big5 : bool) (out : bytes) (skip : nat) (cur : bytes) : lexres bytes :=
  if length cur <=? skip + 1 then LErr [] (bs "unexpected end of line")
  else if negb (byte_eqb (nth skip cur c_nul) c_dq)
  then LErr [] (bs "expected start of string '" ++ [c_dq] ++ bs "'")
  else lbind (pscan big5 (skip + 1) (skipn (skip + 1) cur) out)
             (fun r => lbind (pgarbage strict (skipn (S (fst r)) cur)) (fun _ => LOk [] (snd r))).

(** [l] is the current line from column [skip] on *)
Fixpoint pskip (strict big5 : bool) (cur out : bytes) (skip : nat) (l : bytes) : lexres bytes :=
  match l with
  | [] => LErr [] (bs "unexpected end of line")
  | c :: l' =>
      if byte_eqb c c_dq then pline strict big5 out skip cur
      else match pctype strict isspace c with
           | None => LUb []
           | Some false => LErr [] (bs "string must start with '" ++ [c_dq] ++ bs "'")
           | Some true => pskip strict big5 cur out (skip + 1) l'
           end
  end.

Fixpoint pquote (strict : bool) (i : nat) (l : bytes) : option (option nat) :=
  match l with
  | [] => Some None
  | c :: l' =>
      if byte_eqb c c_dq then Some (Some i)
      else match pctype strict isspace c with
           | None => None
           | Some true => pquote strict (S i) l'
           | Some false => Some None
           end
  end.

(** the part of get_string before the continuation lines *)
Definition pfirst (strict pedantic big5 : bool) (skip : nat) (cur : bytes) : lexres bytes :=
  if length cur <=? skip + 1 then LErr [] (bs "unexpected end of line")
  else if byte_eqb (nth skip cur c_nul) c_sp && byte_eqb (nth (skip + 1) cur c_nul) c_dq
  then pline strict big5 [] (skip + 1) cur
  else
    let r := pskip strict big5 cur [] skip (skipn skip cur) in
    if pedantic then lwarn (bs "keyword and string must be seperated by a single space") r else r.

Definition pmsgstr_n (strict : bool) (cur : bytes) : option bool :=
  if starts_with (bs "msgstr[") cur && (8 <? length cur) then
    match pctype strict isdigit (nth 7 cur c_nul) with
    | None => None
    | Some d => Some (d && byte_eqb (nth 8 cur c_nul) c_rbr)
    end
  else Some false.

Section Lex.
  Variable cf : config.
  Variable fn : bytes.
  Local Notation I := (cf_iconv cf).
  Local Notation P := (M (pst I)).
  Local Notation strict := (cf_strict cf).
  Local Open Scope mon_scope.

  Fixpoint warns (ws : list bytes) : P unit :=
    match ws with [] => mret tt | w :: ws' => warning cf fn w;; warns ws' end.

  Definition run_lex {A} (r : lexres A) : P A :=
    match r with
    | LOk ws a => warns ws;; mret a
    | LErr ws m => warns ws;; error cf fn m
    | LUb ws => warns ws;; mfail (Ub UbCtype)
    end.

  Definition run_opt {A} (r : option A) : P A :=
    match r with Some a => mret a | None => mfail (Ub UbCtype) end.

  (** what [warning] does to the state *)
  Definition warned (w : bytes) (s : pst I) : pst I :=
    st_tr s (p_tr s ++ [EvLog (log_warning (fn ++ bs ":" ++ dec_Z (p_line s) ++ bs ": warning: " ++ w
                              ++ bs ": " ++ p_cur s))]).

  Lemma warning_eq w s : warning cf fn w s = (Ret tt, warned w s).
  Proof. reflexivity. Qed.

  Fixpoint warned_all (ws : list bytes) (s : pst I) : pst I :=
    match ws with [] => s | w :: ws' => warned_all ws' (warned w s) end.

  Lemma warns_eq ws : forall s, warns ws s = (Ret tt, warned_all ws s).
  Proof. induction ws as [|w ws IH]; intro s; simpl; [reflexivity|]. unfold mbind. rewrite warning_eq. apply IH. Qed.

  Lemma warned_all_app ws ws' : forall s, warned_all (ws ++ ws') s = warned_all ws' (warned_all ws s).
  Proof. induction ws; intro s; simpl; auto. Qed.

  Lemma warned_cur ws : forall s, p_cur (warned_all ws s) = p_cur s.
  Proof. induction ws; intro s; simpl; auto. rewrite IHws. reflexivity. Qed.
  Lemma warned_big5 ws : forall s, p_big5 (warned_all ws s) = p_big5 s.
  Proof. induction ws; intro s; simpl; auto. rewrite IHws. reflexivity. Qed.

  (** the value-dependent part of a run *)
  Lemma run_lex_eq {A} (r : lexres A) s :
    run_lex r s = match r with
                  | LOk ws a => (Ret a, warned_all ws s)
                  | LErr ws m => error cf fn m (warned_all ws s)
                  | LUb ws => (Ub UbCtype, warned_all ws s)
                  end.
  Proof. destruct r; unfold run_lex, mbind; rewrite warns_eq; reflexivity. Qed.

  Lemma run_lex_lwarn {A} w (r : lexres A) s : run_lex (lwarn w r) s = run_lex r (warned w s).
  Proof. rewrite !run_lex_eq. destruct r; reflexivity. Qed.

  Lemma error_never_returns {A B} m s (f : A -> P B) :
    mbind (error cf fn m) f s = error cf fn m s.
  Proof.
    unfold error, mbind, mget, emit, mmod.
    destruct (recover cf _ _) as [[[]| | | | ] s']; reflexivity.
  Qed.

  Lemma run_lex_lbind {A B} (r : lexres A) (f : A -> lexres B) s :
    run_lex (lbind r f) s = mbind (run_lex r) (fun a => run_lex (f a)) s.
  Proof.
    unfold mbind. rewrite (run_lex_eq r).
    destruct r as [ws a|ws m|ws]; cbn [lbind].
    - rewrite run_lex_eq. rewrite run_lex_eq.
      destruct (f a); rewrite warned_all_app; reflexivity.
    - rewrite run_lex_eq.
      change (error cf fn m (warned_all ws s) =
              mbind (error cf fn m) (fun a => run_lex (f a)) (warned_all ws s)).
      rewrite error_never_returns. reflexivity.
    - rewrite run_lex_eq. reflexivity.
  Qed.

  Lemma ctype_eq {A} (f : byte -> A) c : ctype cf f c = run_opt (pctype strict f c).
  Proof. unfold ctype, pctype. destruct (strict && hi c); reflexivity. Qed.

  Lemma all_space_eq l : forall s, all_space cf l s = run_opt (pall_space strict l) s.
  Proof.
    induction l as [|c l IH]; intro s; simpl; [reflexivity|].
    unfold mbind. rewrite ctype_eq. destruct (pctype strict isspace c) as [[]|]; simpl; auto.
  Qed.

  Lemma is_empty_line_eq s : is_empty_line cf s = run_opt (pempty strict (p_cur s)) s.
  Proof.
    unfold is_empty_line, mbind, mget. unfold pempty. destruct (p_cur s) as [|c cur] eqn:E; [reflexivity|].
    destruct (byte_eqb c c_hash).
    - destruct cur as [|c1 cur]; [reflexivity|]. rewrite ctype_eq. reflexivity.
    - rewrite all_space_eq. reflexivity.
  Qed.

  Lemma cur_at_lt i s : i < length (p_cur s) -> cur_at cf i s = (Ret (nth i (p_cur s) c_nul), s).
  Proof.
    intro H. unfold cur_at, mbind, mget. destruct (Nat.ltb_spec i (length (p_cur s))); [reflexivity|blia].
  Qed.
  Lemma cur_at_end i s : i = length (p_cur s) -> cur_at cf i s = (Ret c_nul, s).
  Proof.
    intro H. unfold cur_at, mbind, mget. destruct (Nat.ltb_spec i (length (p_cur s))); [blia|].
    destruct (Nat.eqb_spec i (length (p_cur s))); [reflexivity|blia].
  Qed.

  Lemma skipn_cons_nth (A : Type) (d : A) i (l : list A) :
    i < length l -> skipn i l = nth i l d :: skipn (S i) l.
  Proof.
    revert i; induction l as [|x l IH]; intros [|i] H; simpl in *; try lia; auto.
    rewrite IH by blia. reflexivity.
  Qed.

  Lemma scan_string_eq fuel : forall i out s,
    i <= length (p_cur s) -> length (p_cur s) < fuel + i ->
    scan_string cf fn fuel i out s = run_lex (pscan (p_big5 s) i (skipn i (p_cur s)) out) s.
  Proof.
    induction fuel as [|fuel IH]; intros i out s Hi Hf; [simpl in Hf; lia|].
    cbn [scan_string]. unfold mbind at 1.
    destruct (Nat.eq_dec i (length (p_cur s))) as [He|Hne].
    - rewrite cur_at_end by exact He. rewrite skipn_all2 by blia. cbn [pscan].
      change (byte_eqb c_nul c_dq) with false. cbv iota. unfold mbind, mget.
      change (big5_lead c_nul) with false. rewrite andb_false_r.
      destruct (Nat.leb_spec (length (p_cur s)) i); [|blia].
      rewrite run_lex_eq. reflexivity.
    - rewrite cur_at_lt by blia. rewrite (skipn_cons_nth ascii c_nul i) by blia.
      set (c := nth i (p_cur s) c_nul). cbn [pscan].
      destruct (byte_eqb c c_dq) eqn:Edq; [rewrite run_lex_eq; reflexivity|].
      unfold mbind at 1, mget at 1. unfold mbind at 1, mget at 1.
      assert (Hi1 : forall (X : Type) (d : X), i + 1 = S i) by (intros; lia).
      destruct (p_big5 s && big5_lead c) eqn:E5.
      + destruct (Nat.leb_spec (length (p_cur s)) (i + 1)).
        * rewrite (skipn_all2 (n := S i)) by blia. rewrite run_lex_eq. reflexivity.
        * unfold mbind at 1. rewrite cur_at_lt by blia.
          rewrite (skipn_cons_nth ascii c_nul (S i)) by blia.
          rewrite IH by blia. replace (i + 2) with (S (S i)) by blia.
          replace (i + 1) with (S i) by blia. reflexivity.
      + destruct (Nat.leb_spec (length (p_cur s)) i); [blia|].
        destruct (byte_eqb c c_bsl) eqn:Eb.
        * destruct (Nat.leb_spec (length (p_cur s)) (i + 1)).
          -- rewrite (skipn_all2 (n := S i)) by blia. rewrite run_lex_eq. reflexivity.
          -- unfold mbind at 1. rewrite cur_at_lt by blia.
             rewrite (skipn_cons_nth ascii c_nul (S i)) by blia.
             replace (i + 1) with (S i) by blia.
             set (c1 := nth (S i) (p_cur s) c_nul).
             destruct (unescape c1).
             ++ rewrite IH by blia. replace (i + 2) with (S (S i)) by blia. reflexivity.
             ++ rewrite run_lex_lwarn. unfold mbind at 1. rewrite warning_eq.
                rewrite IH by (cbn [warned st_tr p_cur]; blia).
                replace (i + 2) with (S (S i)) by blia. reflexivity.
        * rewrite IH by blia. replace (i + 1) with (S i) by blia. reflexivity.
  Qed.

  Lemma check_garbage_eq l : forall s, check_garbage cf fn l s = run_lex (pgarbage strict l) s.
  Proof.
    induction l as [|c l IH]; intro s; simpl; [reflexivity|].
    unfold mbind. rewrite ctype_eq. destruct (pctype strict isspace c) as [[]|]; simpl; auto.
  Qed.

  Lemma mbind_ext {S A B} (m m' : M S A) (f g : A -> M S B) s :
    m s = m' s -> (forall a s', m' s = (Ret a, s') -> f a s' = g a s') -> mbind m f s = mbind m' g s.
  Proof. intros H Hg. unfold mbind. rewrite H. destruct (m' s) as [[] ?]; auto. Qed.

  Lemma get_string_line_eq out skip s :
    get_string_line cf fn out skip s = run_lex (pline strict (p_big5 s) out skip (p_cur s)) s.
  Proof.
    unfold get_string_line, pline. unfold mbind at 1, mget at 1.
    destruct (Nat.leb_spec (length (p_cur s)) (skip + 1)); [rewrite run_lex_eq; reflexivity|].
    unfold mbind at 1. rewrite cur_at_lt by blia.
    destruct (byte_eqb (nth skip (p_cur s) c_nul) c_dq); cbn [negb].
    2: { rewrite run_lex_eq. reflexivity. }
    rewrite run_lex_lbind. apply mbind_ext.
    - apply scan_string_eq; blia.
    - intros [i o] s' Hs. cbn [fst snd]. unfold mbind at 1, mget.
      assert (Hc : p_cur s' = p_cur s).
      { rewrite run_lex_eq in Hs. destruct (pscan _ _ _ _) as [ws a|ws m|ws] eqn:Es.
        - inversion Hs; subst. apply warned_cur.
        - exfalso. revert Hs. unfold error, mbind, mget, emit, mmod. intro Hs.
          destruct (recover cf _ _) as [[[]| | | | ] s'']; discriminate Hs.
        - discriminate Hs. }
      rewrite Hc. rewrite run_lex_lbind. apply mbind_ext; [apply check_garbage_eq|].
      intros a s1 _. reflexivity.
  Qed.

  Lemma skip_to_string_eq fuel : forall out skip s,
    skip <= length (p_cur s) -> length (p_cur s) < fuel + skip ->
    skip_to_string cf fn fuel out skip s =
    run_lex (pskip strict (p_big5 s) (p_cur s) out skip (skipn skip (p_cur s))) s.
  Proof.
    induction fuel as [|fuel IH]; intros out skip s Hi Hf; [simpl in Hf; lia|].
    cbn [skip_to_string]. unfold mbind at 1, mget at 1.
    destruct (Nat.leb_spec (length (p_cur s)) skip).
    - rewrite skipn_all2 by blia. rewrite run_lex_eq. reflexivity.
    - unfold mbind at 1. rewrite cur_at_lt by blia. rewrite (skipn_cons_nth ascii c_nul skip) by blia.
      cbn [pskip]. destruct (byte_eqb (nth skip (p_cur s) c_nul) c_dq); [apply get_string_line_eq|].
      unfold mbind at 1. rewrite ctype_eq. destruct (pctype _ _ _) as [[]|]; cbn [run_opt negb].
      + unfold mret; cbv beta iota; cbn [negb]. rewrite IH by blia. replace (skip + 1) with (S skip) by blia. reflexivity.
      + rewrite run_lex_eq. reflexivity.
      + rewrite run_lex_eq. reflexivity.
  Qed.

  Lemma find_quote_eq l : forall i s, find_quote cf i l s = run_opt (pquote strict i l) s.
  Proof.
    induction l as [|c l IH]; intros i s; simpl; [reflexivity|].
    destruct (byte_eqb c c_dq); [reflexivity|].
    unfold mbind. rewrite ctype_eq. destruct (pctype strict isspace c) as [[]|]; simpl; auto.
  Qed.

  Lemma is_msgstr_n_eq s : is_msgstr_n cf s = run_opt (pmsgstr_n strict (p_cur s)) s.
  Proof.
    unfold is_msgstr_n, mbind, mget, pmsgstr_n.
    destruct (starts_with _ _ && _); [|reflexivity].
    rewrite ctype_eq. destruct (pctype _ _ _); reflexivity.
  Qed.

  Lemma get_string_eq skip s :
    get_string cf fn skip s =
    mbind (run_lex (pfirst strict (cf_pedantic cf) (p_big5 s) skip (p_cur s)))
          (continuation cf fn (cf_fuel cf)) s.
  Proof.
    unfold get_string, pfirst. unfold mbind at 1, mget at 1.
    destruct (Nat.leb_spec (length (p_cur s)) (skip + 1)).
    { unfold mbind. rewrite run_lex_eq. cbn [warned_all].
      change (error cf fn (bs "unexpected end of line") s =
              mbind (error cf fn (bs "unexpected end of line")) (continuation cf fn (cf_fuel cf)) s).
      rewrite error_never_returns. reflexivity. }
    unfold mbind at 1. rewrite cur_at_lt by blia.
    set (c0 := nth skip (p_cur s) c_nul).
    unfold mbind at 1.
    assert (Hc1 : (if byte_eqb c0 c_sp then cur_at cf (skip + 1) else mret c_nul) s =
                  (Ret (if byte_eqb c0 c_sp then nth (skip + 1) (p_cur s) c_nul else c_nul), s)).
    { destruct (byte_eqb c0 c_sp); [apply cur_at_lt; blia|reflexivity]. }
    rewrite Hc1. apply mbind_ext; [|reflexivity].
    destruct (byte_eqb c0 c_sp) eqn:E0; cbn [andb].
    - destruct (byte_eqb (nth (skip + 1) (p_cur s) c_nul) c_dq) eqn:E1.
      + apply get_string_line_eq.
      + destruct (cf_pedantic cf).
        * rewrite run_lex_lwarn. unfold mbind. rewrite warning_eq.
          rewrite skip_to_string_eq; cbn [warned st_tr p_cur p_big5]; [reflexivity|blia|simpl; blia].
        * unfold mbind, mret. rewrite skip_to_string_eq; [reflexivity|blia|simpl; blia].
    - destruct (cf_pedantic cf).
      + rewrite run_lex_lwarn. unfold mbind. rewrite warning_eq.
        rewrite skip_to_string_eq; cbn [warned st_tr p_cur p_big5]; [reflexivity|blia|simpl; blia].
      + unfold mbind, mret. rewrite skip_to_string_eq; [reflexivity|blia|simpl; blia].
  Qed.
End Lex.
