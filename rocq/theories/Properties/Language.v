(** Properties C13-C20 and C54: class Language. *)
From Verif.Model Require Import Base LanguageTable Language.
From Verif.Spec Require Import LangSpec.
From Verif.Proofs Require Import BaseFacts LangProofs.
Local Open Scope list_scope.

(** C13. The score, for any two language values. *)
Theorem C13_match_score :
  forall a b : language,
  (get_language a <> get_language b -> lang_match a b = 0%Z) /\
  (get_language a = get_language b ->
   forall c m, agree (get_country a) (get_country b) c -> agree (get_modifier a) (get_modifier b) m ->
               lang_match a b = score c m).
Proof. intros. split; [apply lang_match_zero | intros; now apply lang_match_exact]. Qed.

Theorem C13_match_properties :
  forall a b : language,
  lang_match a b = lang_match b a /\
  (0 <= lang_match a b <= 9)%Z /\
  (lang_match a b = 0%Z <-> get_language a <> get_language b) /\
  (lang_match a b = 9%Z <-> get_language a = get_language b /\ get_country a = get_country b
                            /\ get_modifier a = get_modifier b).
Proof.
  intros. split; [apply lang_match_sym|]. split; [apply lang_match_range|].
  split; [apply lang_match_zero | apply lang_match_nine].
Qed.

(** exactly one agreement holds, so the score is determined; better agreement of
    either part, other things equal, scores strictly higher *)
Theorem C13_agreement_and_monotonicity :
  (forall a b, exists r, agree a b r /\ forall r', agree a b r' -> r' = r) /\
  (forall x, (score Conflict x < score OneMissing x < score Same x)%Z) /\
  (forall x, (score x Conflict < score x OneMissing < score x Same)%Z).
Proof.
  repeat split; try (destruct x; simpl; lia).
  intros. destruct (agree_total a b) as [r R]. exists r. split; auto. intros. eapply agree_det; eauto.
Qed.

Example C13_nonvacuous :
  match from_spec false (bs "de") (bs "AT") [], from_spec false (bs "de") [] [] with
  | Ret a, Ret b => (lang_match a b, lang_match a a) = (7, 9)%Z
  | _, _ => False
  end.
Proof. vm_compute. reflexivity. Qed.

(** C14 *)
Theorem C14_from_spec_best :
  forall (ndebug : bool) (la co mo : bytes),
  let want := asked la (c_str co) (c_str mo) in
  (from_spec ndebug la co mo = Ret None /\ forall s, In s languages -> ls_language s <> la) \/
  (exists before s after,
     from_spec ndebug la co mo = Ret (Some s) /\ languages = before ++ s :: after /\ ls_language s = la /\
     (forall x, In x before -> ls_language x = la -> (lang_match (Some x) want < lang_match (Some s) want)%Z) /\
     (forall x, In x after -> ls_language x = la -> (lang_match (Some x) want <= lang_match (Some s) want)%Z)).
Proof. exact from_spec_cases. Qed.

Example C14_nonvacuous :
  (exists s, from_spec false (bs "pt") (bs "BR") (bs "x") = Ret (Some s) /\ str (Some s) = bs "pt_BR") /\
  (exists s, from_spec false (bs "pt") (bs "XX") [] = Ret (Some s) /\ str (Some s) = bs "pt") /\
  from_spec false (bs "PT") [] [] = Ret None /\ c_str (bs "BR") = bs "BR".
Proof. split; [|split; [|split]]; try eexists; try split; vm_compute; reflexivity. Qed.

(** C15. Everything the three constructors return is undefined or in the table ... *)
Theorem C15_constructors_return_known_languages :
  forall (strict ndebug : bool) (l : language),
  (forall la co mo, from_spec ndebug la co mo = Ret l -> known l) /\
  (forall env, from_env ndebug env = Ret l -> known l) /\
  (forall name, from_name strict ndebug name = Ret l -> known l).
Proof.
  intros. split; [|split]; intros.
  - eapply from_spec_known; eauto.
  - eapply from_env_known; eauto.
  - unfold from_name in H. destruct (resolve_language_alias strict name); try discriminate.
    eapply from_env_known; eauto.
Qed.

(** ... and such values round-trip through their names and parts. *)
Theorem C15_names_round_trip :
  forall (ndebug : bool) (l : language), known l ->
  from_env ndebug (str l) = Ret l /\
  from_spec ndebug (get_language l) (get_country l) (get_modifier l) = Ret l.
Proof.
  intros. split; [now apply env_roundtrip|]. destruct l as [s|]; [now apply spec_roundtrip|].
  destruct ndebug; vm_compute; reflexivity.
Qed.

Theorem C15_equal_iff_same_name :
  forall a b : language, known a -> known b -> (lang_eqb a b = true <-> str a = str b).
Proof.
  intros. rewrite lang_eqb_eq by auto. split; [congruence|]. now apply str_inj.
Qed.

Example C15_nonvacuous :
  length languages = 241 /\
  existsb (fun s => bytes_eqb (str (Some s)) (bs "ca@valencia")) languages = true.
Proof. split; vm_compute; reflexivity. Qed.

(** C16 *)
Theorem C16_from_env_splits :
  forall (ndebug : bool) (la : bytes) (co cs mo : option bytes),
  ~ In c_us la -> ~ In c_dot la -> ~ In c_at la ->
  ~ In c_dot (given co) -> ~ In c_at (given co) -> ~ In c_at (given cs) ->
  (co = None -> ~ In c_us (given cs) /\ ~ In c_us (given mo)) ->
  real_string (locale_name la co cs mo) ->
  from_env ndebug (locale_name la co cs mo) = from_spec ndebug la (given co) (given mo).
Proof. exact from_env_split. Qed.

Theorem C16_from_env_never_throws : forall ndebug env, exists l, from_env ndebug env = Ret l.
Proof. exact from_env_total. Qed.

Example C16_nonvacuous :
  locale_name (bs "sr") (Some (bs "RS")) (Some (bs "UTF-8")) (Some (bs "latin")) = bs "sr_RS.UTF-8@latin" /\
  exists s, from_env false (bs "de_AT.ISO-8859-1@euro") = Ret (Some s) /\ str (Some s) = bs "de_AT".
Proof. split; [reflexivity|]. eexists. split; vm_compute; reflexivity. Qed.

(** C54. Without a country, an underscore in the modifier or codeset is taken as
    the country separator. *)
Theorem C54_stray_underscore_becomes_country :
  forall (ndebug : bool) (la a b : bytes) (sep : byte),
  sep = c_at \/ (sep = c_dot /\ ~ In c_at a /\ ~ In c_at b) ->
  ~ In c_us la -> ~ In c_dot la -> ~ In c_at la -> ~ In c_us a -> b <> [] ->
  real_string (la ++ sep :: a ++ c_us :: b) ->
  from_env ndebug (la ++ sep :: a ++ c_us :: b) =
  from_spec ndebug la b (if byte_eqb sep c_at then a ++ c_us :: b else []).
Proof. exact from_env_stray_underscore. Qed.

(** e.g. the codeset decides the country *)
Example C54_nonvacuous :
  exists s, from_env false (bs "pt.ISO_BR") = Ret (Some s) /\ str (Some s) = bs "pt_BR".
Proof. eexists. split; vm_compute; reflexivity. Qed.

(** C17 *)
Theorem C17_alias_resolution :
  forall (ndebug : bool) (s : bytes),
  (forall alias locale, In (alias, locale) aliases -> List.map tolower s = alias ->
      from_name false ndebug s = from_env ndebug locale) /\
  (~ In (List.map tolower s) (List.map fst aliases) -> from_name false ndebug s = from_env ndebug s).
Proof.
  intros. unfold from_name, resolve_language_alias. cbn [andb]. split.
  - intros alias locale H E. rewrite E. rewrite (In_assoc _ _ _ aliases_nodup H). reflexivity.
  - intros H. apply assoc_None in H. rewrite H. reflexivity.
Qed.

Example C17_nonvacuous :
  In (bs "german", bs "de_DE.ISO-8859-1") aliases /\ List.map tolower (bs "GerMan") = bs "german" /\
  exists s, from_name false false (bs "GerMan") = Ret (Some s) /\ str (Some s) = bs "de_DE".
Proof.
  split; [apply assoc_In; vm_compute; reflexivity|]. split; [reflexivity|].
  eexists. split; vm_compute; reflexivity.
Qed.

(** C18. No argument selects a row whose alias contains an upper-case letter. *)
Theorem C18_uppercase_aliases_are_dead :
  forall (alias locale s : bytes), In (alias, locale) aliases -> existsb isupper alias = true ->
  List.map tolower s <> alias.
Proof. intros alias locale s _ H E. subst. rewrite lowered_has_no_upper in H. discriminate. Qed.

Theorem C18_which_aliases :
  List.map fst (List.filter (fun r => existsb isupper (fst r)) aliases) =
  List.map bs ["ja_JP"; "ja_JP.ujis"; "ko_KR"; "no_NO"; "no_NO.ISO-8859-1"]%string.
Proof. vm_compute. reflexivity. Qed.

Theorem C18_no_NO_example :
  In (bs "no_NO", bs "nb_NO.ISO-8859-1") aliases /\
  exists s t, from_name false false (bs "no_NO") = Ret (Some s) /\ str (Some s) = bs "no_NO" /\
              from_env false (bs "nb_NO.ISO-8859-1") = Ret (Some t) /\ str (Some t) = bs "nb_NO".
Proof.
  split; [apply assoc_In; vm_compute; reflexivity|].
  do 2 eexists. repeat split; vm_compute; reflexivity.
Qed.

(** C19 *)
Theorem C19_base_language :
  forall (ndebug : bool) (s : language_spec), In s languages ->
  exists b, from_spec ndebug (get_language (Some s)) [] [] = Ret (Some b) /\ In b languages /\
            get_country (Some b) = [] /\ get_language (Some b) = get_language (Some s).
Proof. exact base_language. Qed.

(** C20 *)
Theorem C20_order :
  (forall a, lang_ltb a a = false) /\
  (forall a b c, lang_ltb a b = true -> lang_ltb b c = true -> lang_ltb a c = true) /\
  (forall a b, known a -> known b ->
     (lang_ltb a b = false /\ lang_ltb b a = false <-> lang_eqb a b = true)).
Proof.
  split; [exact lang_ltb_irrefl|]. split; [exact lang_ltb_trans|].
  intros a b Ka Kb. split.
  - intros [A B]. destruct (lang_eqb a b) eqn:E; auto. exfalso.
    destruct (lang_ltb_total a b Ka Kb); try congruence.
    intros H. apply (lang_eqb_eq a b Ka Kb) in H. congruence.
  - intros E. apply lang_eqb_eq in E; auto. subst. split; apply lang_ltb_irrefl.
Qed.

(** C61. Names, definedness and hashing. *)
Theorem C61_defined_languages_have_names :
  forall l : language, known l ->
  (lang_defined l = true ->
     get_language l <> [] /\ str l <> [] /\ get_name l <> [] /\ get_localized_name l <> []) /\
  (lang_defined l = false ->
     get_language l = [] /\ get_country l = [] /\ get_modifier l = [] /\ str l = [] /\
     get_name l = [] /\ get_localized_name l = []).
Proof.
  intros [s|] K; split; intro H; try discriminate H; [|repeat split].
  pose proof (languages_named s K) as (A & B & C). split; [exact A|]. split; [|split; [exact B|exact C]].
  unfold str. destruct (ls_language s) eqn:E; [exfalso; apply A; exact E|discriminate].
Qed.

(** The English name and the localised name are those of the table row the language was
    made from, the English one standing in where the row has none. *)
Theorem C61_names_come_from_the_table :
  forall s : language_spec, In s languages ->
  exists (la : string) (co mo : option string) (name : string) (localized : option string),
    In (la, co, mo, name, localized) raw_languages /\
    get_language (Some s) = bs la /\
    get_country (Some s) = match co with Some c => bs c | None => [] end /\
    get_modifier (Some s) = match mo with Some m => bs m | None => [] end /\
    get_name (Some s) = bs name /\
    get_localized_name (Some s) = match localized with Some n => bs n | None => bs name end.
Proof. exact languages_from_table. Qed.

Theorem C61_defined_iff_named :
  forall l : language, known l ->
  (lang_defined l = true <-> str l <> []) /\ (forall l', known l' -> lang_neqb l l' = negb (bytes_eqb (str l) (str l'))).
Proof.
  intros l K. split.
  - split; intro H; [now apply C61_defined_languages_have_names|]. destruct l; [reflexivity|exfalso; now apply H].
  - intros l' K'. unfold lang_neqb. f_equal. destruct (bytes_eqb_spec (str l) (str l')) as [E|E].
    + now apply C15_equal_iff_same_name.
    + apply not_true_iff_false. intro H. apply E. now apply C15_equal_iff_same_name.
Qed.

(** Languages work as keys of hash containers: equal ones hash alike, and where different
    addresses have different numbers, different ones hash differently. *)
Theorem C61_hash :
  forall (addr : option nat -> N) (a b : language), known a -> known b ->
  (lang_eqb a b = true -> lang_hash addr a = lang_hash addr b) /\
  ((forall x y, addr x = addr y -> x = y) -> lang_hash addr a = lang_hash addr b -> lang_eqb a b = true).
Proof.
  intros addr a b Ka Kb. split.
  - intro H. apply lang_eqb_eq in H; auto. now subst.
  - intros I H. apply I in H. destruct a as [a|], b as [b|]; try discriminate H; [|reflexivity].
    unfold lang_eqb. apply Nat.eqb_eq. congruence.
Qed.

Example C61_nonvacuous :
  match from_env false (bs "de_AT"), from_env false (bs "xx") with
  | Ret a, Ret b => get_name a = bs "German (Austria)" /\ lang_defined a = true /\ lang_defined b = false /\ lang_neqb a b = true
  | _, _ => False
  end.
Proof. vm_compute. repeat split. Qed.

Print Assumptions C61_defined_languages_have_names.
Print Assumptions C61_names_come_from_the_table.
Print Assumptions C61_hash.
Print Assumptions C13_match_score.
Print Assumptions C14_from_spec_best.
Print Assumptions C15_names_round_trip.
Print Assumptions C16_from_env_splits.
Print Assumptions C17_alias_resolution.
Print Assumptions C18_uppercase_aliases_are_dead.
Print Assumptions C19_base_language.
Print Assumptions C20_order.
Print Assumptions C54_stray_underscore_becomes_country.

Print Assumptions C13_match_properties.
Print Assumptions C13_agreement_and_monotonicity.
Print Assumptions C15_constructors_return_known_languages.
Print Assumptions C15_equal_iff_same_name.
Print Assumptions C16_from_env_never_throws.
Print Assumptions C18_which_aliases.
Print Assumptions C18_no_NO_example.
Print Assumptions C61_defined_iff_named.
