(** Specification of language matching and locale names. *)
From Verif.Model Require Import Base Language.
Local Open Scope list_scope.

(** How two optional parts (country or modifier; "" = not given) agree. *)
Inductive agreement := Same | OneMissing | Conflict.

Definition agree (a b : bytes) (r : agreement) : Prop :=
  match r with
  | Same => a = b
  | OneMissing => a <> b /\ (a = [] \/ b = [])
  | Conflict => a <> b /\ a <> [] /\ b <> []
  end.

(** Score of two languages with equal codes: [score country modifier]. *)
Definition score (c m : agreement) : Z :=
  match c, m with
  | Same, Same => 9 | Same, OneMissing => 8
  | OneMissing, Same => 7 | OneMissing, OneMissing => 6
  | Same, Conflict => 5
  | Conflict, Same => 4
  | OneMissing, Conflict => 3
  | Conflict, OneMissing => 2
  | Conflict, Conflict => 1
  end%Z.

(** A language value a client can hold: undefined, or an element of the table. *)
Definition known (l : language) : Prop :=
  match l with None => True | Some s => In s languages end.

(** The language a client asks for, as a value to compare with. *)
Definition asked (la co mo : bytes) : language :=
  Some {| ls_addr := length languages; ls_language := la; ls_country := Some co;
          ls_modifier := Some mo; ls_name := []; ls_localized := None |}.

(** lang[_country][.codeset][@modifier] *)
Definition locale_name (la : bytes) (co cs mo : option bytes) : bytes :=
  la ++ match co with Some x => c_us :: x | None => [] end
     ++ match cs with Some x => c_dot :: x | None => [] end
     ++ match mo with Some x => c_at :: x | None => [] end.

Definition given (o : option bytes) : bytes := match o with Some x => x | None => [] end.

(** Lengths for which size_t arithmetic is exact (std::string::max_size). *)
Definition real_string (s : bytes) : Prop := (size s < 2 ^ 63)%N.
