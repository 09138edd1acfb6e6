(** Model of src/plural_forms.cpp and include/tinygettext/plural_forms.hpp. *)
From Verif.Model Require Import Base.
Local Open Scope Z_scope.

(** The function pointers stored in a PluralForms; one constructor per function
    of plural_forms.cpp:37-60. Pointer equality is constructor equality. *)
Inductive plural_fn :=
| plural1 | plural2_1 | plural2_2 | plural2_mk | plural2_mk_2
| plural3_lv | plural3_ga | plural3_lt | plural3_1 | plural3_sk | plural3_pl
| plural3_ro | plural3_sl
| plural4_be | plural4_cs | plural4_cy | plural4_gd | plural4_he | plural4_lt
| plural4_pl | plural4_sk | plural4_uk
| plural5_ga | plural6_ar.

Definition plural_fn_eq_dec (a b : plural_fn) : {a = b} + {a <> b}.
Proof. decide equality. Defined.

(** C's [%] on int truncates towards zero: [Z.rem]. [n] ranges over int; no
    function overflows, so [Z] is used unbounded. *)
#[local] Set Warnings "-notation-overridden".
Local Notation "a % b" := (Z.rem a b) (at level 40, left associativity).
Local Notation "a != b" := (negb (a =? b)) (at level 70).
Local Notation "a >= b" := (b <=? a) : Z_scope.
Local Notation "a > b" := (b <? a) : Z_scope.
Local Notation "a == b" := (a =? b) (at level 70).

(** plural_forms.cpp:37-60, one line each, in source order. *)
Definition plural_eval (f : plural_fn) (n : Z) : Z :=
  match f with
  | plural1 => 0
  | plural2_1 => if n != 1 then 1 else 0
  | plural2_2 => if n > 1 then 1 else 0
  | plural2_mk => if (n == 1) || (n % 10 == 1) then 0 else 1
  | plural2_mk_2 => if (n % 10 == 1) && (n % 100 != 11) then 0 else 1
  | plural3_lv => if (n % 10 == 1) && (n % 100 != 11) then 0 else if n != 0 then 1 else 2
  | plural3_ga => if n == 1 then 0 else if n == 2 then 1 else 2
  | plural3_lt => if (n % 10 == 1) && (n % 100 != 11) then 0
                  else if (n % 10 >= 2) && ((n % 100 <? 10) || (n % 100 >= 20)) then 1 else 2
  | plural3_1 => if (n % 10 == 1) && (n % 100 != 11) then 0
                 else if (n % 10 >= 2) && (n % 10 <=? 4) && ((n % 100 <? 10) || (n % 100 >= 20)) then 1 else 2
  | plural3_sk => if n == 1 then 0 else if (n >= 2) && (n <=? 4) then 1 else 2
  | plural3_pl => if n == 1 then 0
                  else if (n % 10 >= 2) && (n % 10 <=? 4) && ((n % 100 <? 10) || (n % 100 >= 20)) then 1 else 2
  | plural3_ro => if n == 1 then 0 else if (n % 100 > 19) || ((n % 100 == 0) && (n != 0)) then 2 else 1
  | plural3_sl => if n % 100 == 1 then 0 else if n % 100 == 2 then 1
                  else if (n % 100 == 3) || (n % 100 == 4) then 2 else 3
  | plural4_be => if (n % 10 == 1) && (n % 100 != 11) then 0
                  else if (n % 10 >= 2) && (n % 10 <=? 4) && ((n % 100 <? 12) || (n % 100 > 14)) then 1
                  else if (n % 10 == 0) || ((n % 10 >= 5) && (n % 10 <=? 9)) || ((n % 100 >= 11) && (n % 100 <=? 14)) then 2 else 3
  | plural4_cs => if (n == 1) && (n % 1 == 0) then 0
                  else if (n >= 2) && (n <=? 4) && (n % 1 == 0) then 1
                  else if n % 1 != 0 then 2 else 3
  | plural4_cy => if n == 1 then 0 else if n == 2 then 1 else if (n != 8) && (n != 11) then 2 else 3
  | plural4_gd => if (n == 1) || (n == 11) then 0 else if (n == 2) || (n == 12) then 1
                  else if (n > 2) && (n <? 20) then 2 else 3
  | plural4_he => if (n == 1) && (n % 1 == 0) then 0 else if (n == 2) && (n % 1 == 0) then 1
                  else if (n % 10 == 0) && (n % 1 == 0) && (n > 10) then 2 else 3
  | plural4_lt => if (n % 10 == 1) && ((n % 100 > 19) || (n % 100 <? 11)) then 0
                  else if ((n % 10 >= 2) && (n % 10 <=? 9)) && ((n % 100 > 19) || (n % 100 <? 11)) then 1
                  else if n % 1 != 0 then 2 else 3
  | plural4_pl => if n == 1 then 0
                  else if ((n % 10 >= 2) && (n % 10 <=? 4)) && ((n % 100 <? 12) || (n % 100 > 14)) then 1
                  else if ((n != 1) && ((n % 10 >= 0) && (n % 10 <=? 1))) || ((n % 10 >= 5) && (n % 10 <=? 9))
                          || ((n % 100 >= 12) && (n % 100 <=? 14)) then 2 else 3
  | plural4_sk => if (n % 1 == 0) && (n == 1) then 0
                  else if (n % 1 == 0) && (n >= 2) && (n <=? 4) then 1
                  else if n % 1 != 0 then 2 else 3
  | plural4_uk => if (n % 1 == 0) && (n % 10 == 1) && (n % 100 != 11) then 0
                  else if (n % 1 == 0) && (n % 10 >= 2) && (n % 10 <=? 4) && ((n % 100 <? 12) || (n % 100 > 14)) then 1
                  else if (n % 1 == 0) && ((n % 10 == 0) || ((n % 10 >= 5) && (n % 10 <=? 9)) || ((n % 100 >= 11) && (n % 100 <=? 14))) then 2 else 3
  | plural5_ga => if n == 1 then 0 else if n == 2 then 1 else if n <? 7 then 2 else if n <? 11 then 3 else 4
  | plural6_ar => if n == 0 then 0 else if n == 1 then 1 else if n == 2 then 2
                  else if (n % 100 >= 3) && (n % 100 <=? 10) then 3
                  else if n % 100 >= 11 then 4 else 5
  end.

(** class PluralForms, plural_forms.hpp:29-57; [pf_plural = None] is nullptr. *)
Record plural_forms := { pf_nplural : Z; pf_plural : option plural_fn }.

(** PluralForms(), plural_forms.hpp:38-41 *)
Definition pf_none : plural_forms := {| pf_nplural := 0; pf_plural := None |}.

(** get_nplural, plural_forms.hpp:48 *)
Definition get_nplural (p : plural_forms) : Z := pf_nplural p.

(** get_plural, plural_forms.hpp:49 *)
Definition get_plural (p : plural_forms) (n : Z) : Z :=
  match pf_plural p with Some f => plural_eval f n | None => 0 end.

(** explicit operator bool, plural_forms.hpp:54-56 *)
Definition pf_valid (p : plural_forms) : bool :=
  match pf_plural p with Some _ => true | None => false end.

(** operator==, plural_forms.hpp:51 *)
Definition pf_eqb (p q : plural_forms) : bool :=
  (pf_nplural p =? pf_nplural q) &&
  match pf_plural p, pf_plural q with
  | Some f, Some g => if plural_fn_eq_dec f g then true else false
  | None, None => true
  | _, _ => false
  end.

Definition mkpf (k : Z) (f : plural_fn) : plural_forms := {| pf_nplural := k; pf_plural := Some f |}.

(** The static table, plural_forms.cpp:73-97, in source order. *)
Definition plural_table : list (bytes * plural_forms) :=
  List.map (fun r => (bs (fst r), snd r))
  [ ("Plural-Forms:nplurals=1;plural=0;"%string, mkpf 1 plural1);
    ("Plural-Forms:nplurals=2;plural=(n!=1);"%string, mkpf 2 plural2_1);
    ("Plural-Forms:nplurals=2;plural=n!=1;"%string, mkpf 2 plural2_1);
    ("Plural-Forms:nplurals=2;plural=(n>1);"%string, mkpf 2 plural2_2);
    ("Plural-Forms:nplurals=2;plural=n==1||n%10==1?0:1;"%string, mkpf 2 plural2_mk);
    ("Plural-Forms:nplurals=2;plural=(n%10==1&&n%100!=11)?0:1;"%string, mkpf 2 plural2_mk_2);
    ("Plural-Forms:nplurals=3;plural=n%10==1&&n%100!=11?0:n!=0?1:2);"%string, mkpf 2 plural3_lv);
    ("Plural-Forms:nplurals=3;plural=n==1?0:n==2?1:2;"%string, mkpf 3 plural3_ga);
    ("Plural-Forms:nplurals=3;plural=(n%10==1&&n%100!=11?0:n%10>=2&&(n%100<10||n%100>=20)?1:2);"%string, mkpf 3 plural3_lt);
    ("Plural-Forms:nplurals=3;plural=(n%10==1&&n%100!=11?0:n%10>=2&&n%10<=4&&(n%100<10||n%100>=20)?1:2);"%string, mkpf 3 plural3_1);
    ("Plural-Forms:nplurals=3;plural=(n==1)?0:(n>=2&&n<=4)?1:2;"%string, mkpf 3 plural3_sk);
    ("Plural-Forms:nplurals=3;plural=(n==1?0:n%10>=2&&n%10<=4&&(n%100<10||n%100>=20)?1:2);"%string, mkpf 3 plural3_pl);
    ("Plural-Forms:nplurals=3;plural=(n%100==1?0:n%100==2?1:n%100==3||n%100==4?2:3);"%string, mkpf 3 plural3_sl);
    ("Plural-Forms:nplurals=3;plural=(n==1?0:(((n%100>19)||((n%100==0)&&(n!=0)))?2:1));"%string, mkpf 3 plural3_ro);
    ("Plural-Forms:nplurals=4;plural=(n%1==0&&n==1?0:n%1==0&&n>=2&&n<=4?1:n%1!=0?2:3);"%string, mkpf 4 plural4_sk);
    ("Plural-Forms:nplurals=4;plural=(n==1&&n%1==0)?0:(n>=2&&n<=4&&n%1==0)?1:(n%1!=0)?2:3;"%string, mkpf 4 plural4_cs);
    ("Plural-Forms:nplurals=4;plural=(n%10==1&&n%100!=11?0:n%10>=2&&n%10<=4&&(n%100<12||n%100>14)?1:n%10==0||(n%10>=5&&n%10<=9)||(n%100>=11&&n%100<=14)?2:3);"%string, mkpf 4 plural4_be);
    ("Plural-Forms:nplurals=4;plural=(n==1||n==11)?0:(n==2||n==12)?1:(n>2&&n<20)?2:3;"%string, mkpf 4 plural4_gd);
    ("Plural-Forms:nplurals=4;plural=(n==1)?0:(n==2)?1:(n!=8&&n!=11)?2:3;"%string, mkpf 4 plural4_cy);
    ("Plural-Forms:nplurals=4;plural=(n%10==1&&(n%100>19||n%100<11)?0:(n%10>=2&&n%10<=9)&&(n%100>19||n%100<11)?1:n%1!=0?2:3);"%string, mkpf 4 plural4_lt);
    ("Plural-Forms:nplurals=4;plural=(n%1==0&&n%10==1&&n%100!=11?0:n%1==0&&n%10>=2&&n%10<=4&&(n%100<12||n%100>14)?1:n%1==0&&(n%10==0||(n%10>=5&&n%10<=9)||(n%100>=11&&n%100<=14))?2:3);"%string, mkpf 4 plural4_uk);
    ("Plural-Forms:nplurals=4;plural=(n==1?0:(n%10>=2&&n%10<=4)&&(n%100<12||n%100>14)?1:n!=1&&(n%10>=0&&n%10<=1)||(n%10>=5&&n%10<=9)||(n%100>=12&&n%100<=14)?2:3);"%string, mkpf 4 plural4_pl);
    ("Plural-Forms:nplurals=4;plural=(n==1&&n%1==0)?0:(n==2&&n%1==0)?1:(n%10==0&&n%1==0&&n>10)?2:3;"%string, mkpf 4 plural4_he);
    ("Plural-Forms:nplurals=5;plural=(n==1?0:n==2?1:n<7?2:n<11?3:4)"%string, mkpf 5 plural5_ga);
    ("Plural-Forms:nplurals=6;plural=n==0?0:n==1?1:n==2?2:n%100>=3&&n%100<=10?3:n%100>=11?4:5"%string, mkpf 6 plural6_ar) ].

(** The space-removal loop, plural_forms.cpp:100-104. *)
Definition strip_spaces (s : bytes) : bytes := List.filter (fun c => negb (isspace c)) s.

(** PluralForms::from_string, plural_forms.cpp:64-115. The static table is modelled
    as already initialised (see LazyInit.v for the initialisation itself). [strict]
    = the platform's ctype functions do not accept negative chars. *)
Definition from_string (strict : bool) (str : bytes) : outcome plural_forms :=
  if strict && existsb hi str then Ub UbCtype
  else match assoc (strip_spaces str) plural_table with
       | Some p => Ret p
       | None => Ret pf_none
       end.
