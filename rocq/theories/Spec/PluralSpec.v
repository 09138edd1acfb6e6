(** Specification of Plural-Forms headers, independent of plural_forms.cpp: the
    header text is read as the gettext manual prescribes, as
      Plural-Forms: nplurals=NUMBER; plural=EXPRESSION[;]
    where EXPRESSION is a C expression over the int variable n. *)
From Verif.Model Require Import Base.
Local Open Scope string_scope.
Local Open Scope list_scope.

(** C expressions that may occur. *)
Inductive binop := BMod | BLt | BLe | BGt | BGe | BEq | BNe | BAnd | BOr.
Inductive expr :=
| ENum (z : Z)
| EVar
| EBin (o : binop) (a b : expr)
| ECond (c a b : expr).

Definition truth (b : bool) : Z := if b then 1%Z else 0%Z.

(** C semantics: relational and logical operators yield 0 or 1, % truncates
    towards zero. (&& and || are total here: no operand has side effects, and every
    divisor is a literal checked non-zero by [divisors_ok].) *)
Fixpoint eval (e : expr) (n : Z) : Z :=
  match e with
  | ENum z => z
  | EVar => n
  | EBin o a b =>
      let x := eval a n in let y := eval b n in
      match o with
      | BMod => Z.rem x y
      | BLt => truth (x <? y)%Z
      | BLe => truth (x <=? y)%Z
      | BGt => truth (y <? x)%Z
      | BGe => truth (y <=? x)%Z
      | BEq => truth (x =? y)%Z
      | BNe => truth (negb (x =? y)%Z)
      | BAnd => truth (negb (x =? 0)%Z && negb (y =? 0)%Z)
      | BOr => truth (negb (x =? 0)%Z || negb (y =? 0)%Z)
      end
  | ECond c a b => if (eval c n =? 0)%Z then eval b n else eval a n
  end.

Fixpoint divisors_ok (e : expr) : bool :=
  match e with
  | ENum _ | EVar => true
  | EBin BMod a (ENum z) => divisors_ok a && negb (z =? 0)%Z
  | EBin BMod _ _ => false
  | EBin _ a b => divisors_ok a && divisors_ok b
  | ECond c a b => divisors_ok c && divisors_ok a && divisors_ok b
  end.

(** Tokens. *)
Inductive token := TNum (z : Z) | TN | TOp (o : binop) | TQ | TColon | TLp | TRp.

Fixpoint lex (fuel : nat) (s : bytes) : option (list token) :=
  let tk (t : token) (f : nat) (r : bytes) :=
    match lex f r with Some l => Some (t :: l) | None => None end in
  match fuel with
  | O => None
  | S f =>
      match s with
      | [] => Some []
      | c :: r =>
          let is (x : string) := starts_with (bs x) s in
          if is "n" then tk TN f r
          else if is "?" then tk TQ f r
          else if is ":" then tk TColon f r
          else if is "(" then tk TLp f r
          else if is ")" then tk TRp f r
          else if is "%" then tk (TOp BMod) f r
          else if is "==" then tk (TOp BEq) f (skipn 2 s)
          else if is "!=" then tk (TOp BNe) f (skipn 2 s)
          else if is "<=" then tk (TOp BLe) f (skipn 2 s)
          else if is ">=" then tk (TOp BGe) f (skipn 2 s)
          else if is "<" then tk (TOp BLt) f r
          else if is ">" then tk (TOp BGt) f r
          else if is "&&" then tk (TOp BAnd) f (skipn 2 s)
          else if is "||" then tk (TOp BOr) f (skipn 2 s)
          else if isdigit c then
            let d := (Z.of_N (code c) - 48)%Z in
            (* a number is the longest run of digits *)
            let fix num (acc : Z) (r : bytes) : Z * bytes :=
              match r with
              | x :: r' => if isdigit x then num (acc * 10 + (Z.of_N (code x) - 48))%Z r' else (acc, r)
              | [] => (acc, [])
              end in
            let (z, r') := num d r in tk (TNum z) f r'
          else None
      end
  end.

(** Precedence climbing with C's precedence levels. *)
Definition prec (o : binop) : nat :=
  match o with
  | BMod => 5 | BLt | BLe | BGt | BGe => 4 | BEq | BNe => 3 | BAnd => 2 | BOr => 1
  end.

(** [p_cond]: conditional-expression; [p_bin lvl]: binary operators of level at
    least [lvl], left associative; [p_prim]: primary expression. *)
Fixpoint p_cond (fuel : nat) (ts : list token) : option (expr * list token) :=
  match fuel with
  | O => None
  | S f =>
      match p_bin f 1 ts with
      | Some (c, TQ :: r) =>
          match p_cond f r with
          | Some (a, TColon :: r') =>
              match p_cond f r' with
              | Some (b, r'') => Some (ECond c a b, r'')
              | None => None
              end
          | _ => None
          end
      | x => x
      end
  end
with p_bin (fuel : nat) (lvl : nat) (ts : list token) : option (expr * list token) :=
  match fuel with
  | O => None
  | S f =>
      match p_prim f ts with
      | Some (a, r) => p_rest f lvl a r
      | None => None
      end
  end
with p_rest (fuel : nat) (lvl : nat) (a : expr) (ts : list token) : option (expr * list token) :=
  match fuel with
  | O => None
  | S f =>
      match ts with
      | TOp o :: r =>
          if Nat.leb lvl (prec o) then
            match p_bin f (S (prec o)) r with
            | Some (b, r') => p_rest f lvl (EBin o a b) r'
            | None => None
            end
          else Some (a, ts)
      | _ => Some (a, ts)
      end
  end
with p_prim (fuel : nat) (ts : list token) : option (expr * list token) :=
  match fuel with
  | O => None
  | S f =>
      match ts with
      | TNum z :: r => Some (ENum z, r)
      | TN :: r => Some (EVar, r)
      | TLp :: r =>
          match p_cond f r with
          | Some (e, TRp :: r') => Some (e, r')
          | _ => None
          end
      | _ => None
      end
  end.

Definition parse_expr (s : bytes) : option expr :=
  match lex (S (length s)) s with
  | Some ts => match p_cond (S (20 * length s)) ts with
               | Some (e, []) => if divisors_ok e then Some e else None
               | _ => None
               end
  | None => None
  end.

(** Reads a white-space-free header text: nplurals and expression. *)
Definition parse_header_text (s : bytes) : option (Z * expr) :=
  let k := bs "Plural-Forms:nplurals=" in
  if starts_with k s then
    match skipn (length k) s with
    | d :: r =>
        if isdigit d && starts_with (bs ";plural=") r then
          let e := skipn 8 r in
          let e := match rev e with
                   | c :: e' => if byte_eqb c (chr 59) then rev e' else e
                   | [] => e
                   end in
          match parse_expr e with
          | Some e => Some (Z.of_N (code d) - 48, e)%Z
          | None => None
          end
        else None
    | [] => None
    end
  else None.

(** A string without its white space. *)
Definition no_space (s : bytes) : bytes := List.filter (fun c => negb (isspace c)) s.

(** The two registered texts whose rule can select a form beyond the registered
    number of forms. *)
Definition latvian_text : bytes :=
  bs "Plural-Forms:nplurals=3;plural=n%10==1&&n%100!=11?0:n!=0?1:2);".
Definition slovenian_text : bytes :=
  bs "Plural-Forms:nplurals=3;plural=(n%100==1?0:n%100==2?1:n%100==3||n%100==4?2:3);".

(** The registered texts (plural_forms.cpp:73-97), for reference. *)
Definition registered_texts : list bytes := List.map bs
  [ "Plural-Forms:nplurals=1;plural=0;"
  ; "Plural-Forms:nplurals=2;plural=(n!=1);"
  ; "Plural-Forms:nplurals=2;plural=n!=1;"
  ; "Plural-Forms:nplurals=2;plural=(n>1);"
  ; "Plural-Forms:nplurals=2;plural=n==1||n%10==1?0:1;"
  ; "Plural-Forms:nplurals=2;plural=(n%10==1&&n%100!=11)?0:1;"
  ; "Plural-Forms:nplurals=3;plural=n%10==1&&n%100!=11?0:n!=0?1:2);"
  ; "Plural-Forms:nplurals=3;plural=n==1?0:n==2?1:2;"
  ; "Plural-Forms:nplurals=3;plural=(n%10==1&&n%100!=11?0:n%10>=2&&(n%100<10||n%100>=20)?1:2);"
  ; "Plural-Forms:nplurals=3;plural=(n%10==1&&n%100!=11?0:n%10>=2&&n%10<=4&&(n%100<10||n%100>=20)?1:2);"
  ; "Plural-Forms:nplurals=3;plural=(n==1)?0:(n>=2&&n<=4)?1:2;"
  ; "Plural-Forms:nplurals=3;plural=(n==1?0:n%10>=2&&n%10<=4&&(n%100<10||n%100>=20)?1:2);"
  ; "Plural-Forms:nplurals=3;plural=(n%100==1?0:n%100==2?1:n%100==3||n%100==4?2:3);"
  ; "Plural-Forms:nplurals=3;plural=(n==1?0:(((n%100>19)||((n%100==0)&&(n!=0)))?2:1));"
  ; "Plural-Forms:nplurals=4;plural=(n%1==0&&n==1?0:n%1==0&&n>=2&&n<=4?1:n%1!=0?2:3);"
  ; "Plural-Forms:nplurals=4;plural=(n==1&&n%1==0)?0:(n>=2&&n<=4&&n%1==0)?1:(n%1!=0)?2:3;"
  ; "Plural-Forms:nplurals=4;plural=(n%10==1&&n%100!=11?0:n%10>=2&&n%10<=4&&(n%100<12||n%100>14)?1:n%10==0||(n%10>=5&&n%10<=9)||(n%100>=11&&n%100<=14)?2:3);"
  ; "Plural-Forms:nplurals=4;plural=(n==1||n==11)?0:(n==2||n==12)?1:(n>2&&n<20)?2:3;"
  ; "Plural-Forms:nplurals=4;plural=(n==1)?0:(n==2)?1:(n!=8&&n!=11)?2:3;"
  ; "Plural-Forms:nplurals=4;plural=(n%10==1&&(n%100>19||n%100<11)?0:(n%10>=2&&n%10<=9)&&(n%100>19||n%100<11)?1:n%1!=0?2:3);"
  ; "Plural-Forms:nplurals=4;plural=(n%1==0&&n%10==1&&n%100!=11?0:n%1==0&&n%10>=2&&n%10<=4&&(n%100<12||n%100>14)?1:n%1==0&&(n%10==0||(n%10>=5&&n%10<=9)||(n%100>=11&&n%100<=14))?2:3);"
  ; "Plural-Forms:nplurals=4;plural=(n==1?0:(n%10>=2&&n%10<=4)&&(n%100<12||n%100>14)?1:n!=1&&(n%10>=0&&n%10<=1)||(n%10>=5&&n%10<=9)||(n%100>=12&&n%100<=14)?2:3);"
  ; "Plural-Forms:nplurals=4;plural=(n==1&&n%1==0)?0:(n==2&&n%1==0)?1:(n%10==0&&n%1==0&&n>10)?2:3;"
  ; "Plural-Forms:nplurals=5;plural=(n==1?0:n==2?1:n<7?2:n<11?3:4)"
  ; "Plural-Forms:nplurals=6;plural=n==0?0:n==1?1:n==2?2:n%100>=3&&n%100<=10?3:n%100>=11?4:5" ]%string.
