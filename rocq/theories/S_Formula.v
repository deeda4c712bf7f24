(* Grammar of chemical formulas and of charge notations, independent of the parser. *)
From Verif Require Import Base.

(* A number as written: integer digits and optional fraction digits. *)
Record num := { ipart : str; fpart : option str }.

Definition all_digits (s : str) : Prop := forall c, In c s -> isdigit c = true.

Definition num_wf (n : num) : Prop :=
  all_digits (ipart n) /\
  match fpart n with Some f => all_digits f | None => ipart n <> [] end.

Definition print_num (n : num) : str :=
  ipart n ++ match fpart n with Some f => "."%char :: f | None => [] end.

(* Value of a digit string and of a number. *)
Fixpoint digits_value (s : str) : Q :=
  match s with
  | [] => 0
  | c :: s' => inject_Z (Z.of_N (N_of_ascii c) - 48) * Qpower (10#1) (Z.of_nat (length s')) + digits_value s'
  end.
Definition num_value (n : num) : Q :=
  digits_value (ipart n) +
  match fpart n with
  | Some f => digits_value f / Qpower (10#1) (Z.of_nat (length f))
  | None => 0
  end.

Definition print_onum (n : option num) : str := match n with Some n => print_num n | None => [] end.
Definition onum_value (n : option num) : Q := match n with Some n => num_value n | None => 1 end.
Definition onum_wf (n : option num) : Prop := match n with Some n => num_wf n | None => True end.

(* Formulas: elements with subscripts, groups with multipliers, characters with
   no meaning (such as charge signs) and hydrate parts ".n...". *)
Inductive formula : Type :=
| FEnd
| FElem (sym : str) (n : option num) (rest : formula)
| FGroup (body : formula) (n : option num) (rest : formula)
| FSkip (c : ascii) (rest : formula)
| FDot (n : option num) (rest : formula).

Fixpoint print (f : formula) : str :=
  match f with
  | FEnd => []
  | FElem sym n rest => sym ++ print_onum n ++ print rest
  | FGroup body n rest => "("%char :: print body ++ ")"%char :: print_onum n ++ print rest
  | FSkip c rest => c :: print rest
  | FDot n rest => "."%char :: print_onum n ++ print rest
  end.

(* An element symbol: an upper case letter followed by lower case letters. *)
Definition symbol_wf (sym : str) : Prop :=
  exists c low, sym = c :: low /\ isupper c = true /\ forall d, In d low -> islower d = true.

(* The text following a number or a symbol must not continue it. *)
Definition not_num_start (s : str) : Prop :=
  match s with [] => True | c :: _ => isdigit c = false /\ c <> "."%char end.
Definition not_lower_start (s : str) : Prop :=
  match s with [] => True | c :: _ => islower c = false end.

Fixpoint formula_wf (f : formula) : Prop :=
  match f with
  | FEnd => True
  | FElem sym n rest =>
    symbol_wf sym /\ onum_wf n /\ not_num_start (print rest) /\
    (n = None -> not_lower_start (print rest)) /\ formula_wf rest
  | FGroup body n rest =>
    onum_wf n /\ not_num_start (print rest) /\ formula_wf body /\ formula_wf rest
  | FSkip c rest =>
    c <> "("%char /\ c <> ")"%char /\ c <> "."%char /\ isupper c = false /\ formula_wf rest
  | FDot n rest => onum_wf n /\ not_num_start (print rest) /\ formula_wf rest
  end.

(* Number of atoms of element [e]: sum over its occurrences of the product of
   its subscript and all multipliers enclosing it. *)
Fixpoint atoms (e : str) (f : formula) : Q :=
  match f with
  | FEnd => 0
  | FElem sym n rest => (if str_eq_dec sym e then onum_value n else 0) + atoms e rest
  | FGroup body n rest => onum_value n * atoms e body + atoms e rest
  | FSkip _ rest => atoms e rest
  | FDot n rest => onum_value n * atoms e rest
  end.

(* Element symbols in order of appearance, and the same without repetitions. *)
Fixpoint appearances (f : formula) : list str :=
  match f with
  | FEnd => []
  | FElem sym _ rest => sym :: appearances rest
  | FGroup body _ rest => appearances body ++ appearances rest
  | FSkip _ rest => appearances rest
  | FDot _ rest => appearances rest
  end.

Definition first_appearances (l : list str) : list str :=
  fold_left (fun acc x => if in_dec str_eq_dec x acc then acc else acc ++ [x]) l [].

(* Nesting depth of '(' left open by a text; a ')' with nothing open is ignored. *)
Fixpoint open_depth (d : nat) (s : str) : nat :=
  match s with
  | [] => d
  | c :: s' => open_depth (if Ascii.eqb c "("%char then S d else if Ascii.eqb c ")"%char then pred d else d) s'
  end.

(* ------------------------------------------------------- charge notations *)

Inductive sign := Plus | Minus.
Definition sign_char (s : sign) : ascii := match s with Plus => "+"%char | Minus => "-"%char end.
Definition sign_value (s : sign) : Q := match s with Plus => 1 | Minus => -(1) end.

(* Ca++ ; Ca+2 ; Ca[2+] ; Na[+]. *)
Inductive charge_notation : Type :=
| NRepeated (s : sign) (n : nat)
| NSignNumber (s : sign) (digits : str)
| NBracket (s : sign) (digits : str)
| NBracketSign (s : sign).

Definition print_charge (k : charge_notation) : str :=
  match k with
  | NRepeated s n => repeat (sign_char s) n
  | NSignNumber s ds => sign_char s :: ds
  | NBracket s ds => "["%char :: ds ++ [sign_char s; "]"%char]
  | NBracketSign s => ["["%char; sign_char s; "]"%char]
  end.

Definition charge_wf (k : charge_notation) : Prop :=
  match k with
  | NRepeated _ n => 1 <= n
  | NSignNumber _ ds => ds <> [] /\ all_digits ds
  | NBracket _ ds => ds <> [] /\ all_digits ds /\ ~ digits_value ds == 0
  | NBracketSign _ => True
  end.

Definition charge_value (k : charge_notation) : Q :=
  match k with
  | NRepeated s n => sign_value s * inject_Z (Z.of_nat n)
  | NSignNumber s ds => sign_value s * digits_value ds
  | NBracket s ds => sign_value s * digits_value ds
  | NBracketSign s => sign_value s
  end.

(* A name body: non-empty, without sign and bracket characters. *)
Definition body_wf (b : str) : Prop :=
  b <> [] /\ forall c, In c b -> c <> "+"%char /\ c <> "-"%char /\ c <> "["%char /\ c <> "]"%char.

(* An aggregate state suffix such as "(aq)": lower case text in parentheses. *)
Definition print_suffix (sfx : option str) : str :=
  match sfx with Some t => "("%char :: t ++ [")"%char] | None => [] end.
Definition suffix_wf (sfx : option str) : Prop :=
  match sfx with
  | Some t => forall c, In c t -> isupper c = false /\ c <> "("%char
  | None => True
  end.

(* A text whose characters are all the same. *)
Definition constant (s : str) : Prop := exists c, forall d, In d s -> d = c.
