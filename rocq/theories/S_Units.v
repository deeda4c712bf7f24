(* Independent specification for unit expressions (C11-C14, C64). *)
From Coq Require Import Qpower.
From Verif Require Import Base.

(* Unit expressions: products and quotients, read from left to right, of
   symbols and of parenthesised expressions. *)
Inductive uexpr :=
| UTerm (t : uterm)
| UOp (e : uexpr) (div : bool) (t : uterm)
with uterm :=
| USym (s : str)
| UPar (e : uexpr).

Scheme uexpr_mut := Induction for uexpr Sort Prop
  with uterm_mut := Induction for uterm Sort Prop.
Combined Scheme unit_mutind from uexpr_mut, uterm_mut.

Definition opchar (div : bool) : ascii := if div then "/"%char else "*"%char.

Fixpoint print (e : uexpr) : str :=
  match e with
  | UTerm t => print_term t
  | UOp e' div t => print e' ++ opchar div :: print_term t
  end
with print_term (t : uterm) : str :=
  match t with
  | USym s => s
  | UPar e => $"(" ++ print e ++ $")"
  end.

Definition special (c : ascii) : bool := existsb (Ascii.eqb c) $"*/()".
Definition plain (s : str) : Prop := forallb (fun c => negb (special c)) s = true.

Fixpoint symbols (e : uexpr) : list str :=
  match e with
  | UTerm t => symbols_term t
  | UOp e' _ t => symbols e' ++ symbols_term t
  end
with symbols_term (t : uterm) : list str :=
  match t with
  | USym s => [s]
  | UPar e => symbols e
  end.

(* Well formed: every symbol is a nonempty word without special characters. *)
Definition wf (e : uexpr) : Prop := forall s, In s (symbols e) -> s <> [] /\ plain s.

(* Meaning of an expression in terms of the meaning of its symbols: magnitudes
   multiply and divide, exponents of base dimensions add and subtract. *)
Section Meaning.
Variable val : str -> Q.
Variable dim : str -> str -> Z.

Fixpoint eval (e : uexpr) : Q :=
  match e with
  | UTerm t => eval_term t
  | UOp e' false t => eval e' * eval_term t
  | UOp e' true t => eval e' / eval_term t
  end%Q
with eval_term (t : uterm) : Q :=
  match t with
  | USym s => val s
  | UPar e => eval e
  end.

Fixpoint edim (e : uexpr) (k : str) : Z :=
  match e with
  | UTerm t => edim_term t k
  | UOp e' false t => edim e' k + edim_term t k
  | UOp e' true t => edim e' k - edim_term t k
  end%Z
with edim_term (t : uterm) (k : str) : Z :=
  match t with
  | USym s => dim s k
  | UPar e => edim e k
  end.
End Meaning.

(* Strings without parentheses: words separated by operators, where a word may
   be empty. *)
Fixpoint print_flat (w : str) (rest : list (bool * str)) : str :=
  match rest with
  | [] => w
  | (div, w') :: rest' => w ++ opchar div :: print_flat w' rest'
  end.

(* Temperature scales: y = slope * kelvin + offset. *)
Definition temperature_scales : list (str * (Q * Q)) := [
  ($"K", (1, 0)); ($"kelvin", (1, 0));
  ($"degC", (1, -(27315#100))); ($"celsius", (1, -(27315#100)));
  ($"degF", (9#5, -(45967#100))); ($"fahrenheit", (9#5, -(45967#100)));
  ($"degR", (9#5, 0)); ($"rankine", (9#5, 0))
]%Q.

(* What the built-in symbols stand for: exact value in terms of the base
   symbols g, m, s, A, mol, cd, radian, sr, eq and 1 (None where the value is
   defined by a measured or rounded constant), and exponents of these. *)
Definition base_symbols : list str :=
  [$"1"; $"g"; $"m"; $"s"; $"A"; $"mol"; $"cd"; $"radian"; $"sr"; $"eq"].

Definition si_table : list (str * (option Q * list (str * Z))) := [
  ($"1", (Some (1 # 1), [($"1", (1)%Z)]));
  ($"percent", (Some (1 # 100), [($"1", (1)%Z)]));
  ($"permille", (Some (1 # 1000), [($"1", (1)%Z)]));
  ($"ppm", (Some (1 # 1000000), [($"1", (1)%Z)]));
  ($"ppb", (Some (1 # 1000000000), [($"1", (1)%Z)]));
  ($"ppt", (Some (1 # 1000000000000), [($"1", (1)%Z)]));
  ($"g", (Some (1 # 1), [($"g", (1)%Z)]));
  ($"gram", (Some (1 # 1), [($"g", (1)%Z)]));
  ($"kg", (Some (1000 # 1), [($"g", (1)%Z)]));
  ($"kilogram", (Some (1000 # 1), [($"g", (1)%Z)]));
  ($"mg", (Some (1 # 1000), [($"g", (1)%Z)]));
  ($"mcg", (Some (1 # 1000000), [($"g", (1)%Z)]));
  ($"ug", (Some (1 # 1000000), [($"g", (1)%Z)]));
  ($"ng", (Some (1 # 1000000000), [($"g", (1)%Z)]));
  ($"tonne", (Some (1000000 # 1), [($"g", (1)%Z)]));
  ($"lb", (None, [($"g", (1)%Z)]));
  ($"amu", (None, [($"g", (1)%Z)]));
  ($"ton", (None, [($"g", (1)%Z)]));
  ($"lbm", (None, [($"g", (1)%Z)]));
  ($"m", (Some (1 # 1), [($"m", (1)%Z)]));
  ($"meter", (Some (1 # 1), [($"m", (1)%Z)]));
  ($"km", (Some (1000 # 1), [($"m", (1)%Z)]));
  ($"dm", (Some (1 # 10), [($"m", (1)%Z)]));
  ($"cm", (Some (1 # 100), [($"m", (1)%Z)]));
  ($"mm", (Some (1 # 1000), [($"m", (1)%Z)]));
  ($"um", (Some (1 # 1000000), [($"m", (1)%Z)]));
  ($"nm", (Some (1 # 1000000000), [($"m", (1)%Z)]));
  ($"Angstrom", (Some (1 # 10000000000), [($"m", (1)%Z)]));
  ($"in", (Some (127 # 5000), [($"m", (1)%Z)]));
  ($"inch", (Some (127 # 5000), [($"m", (1)%Z)]));
  ($"ft", (Some (381 # 1250), [($"m", (1)%Z)]));
  ($"foot", (Some (381 # 1250), [($"m", (1)%Z)]));
  ($"feet", (Some (381 # 1250), [($"m", (1)%Z)]));
  ($"yd", (Some (1143 # 1250), [($"m", (1)%Z)]));
  ($"yard", (Some (1143 # 1250), [($"m", (1)%Z)]));
  ($"mi", (Some (201168 # 125), [($"m", (1)%Z)]));
  ($"mile", (Some (201168 # 125), [($"m", (1)%Z)]));
  ($"nauticalmile", (Some (1852 # 1), [($"m", (1)%Z)]));
  ($"mil", (None, [($"m", (1)%Z)]));
  ($"lightyear", (None, [($"m", (1)%Z)]));
  ($"au", (None, [($"m", (1)%Z)]));
  ($"s", (Some (1 # 1), [($"s", (1)%Z)]));
  ($"second", (Some (1 # 1), [($"s", (1)%Z)]));
  ($"ms", (Some (1 # 1000), [($"s", (1)%Z)]));
  ($"us", (Some (1 # 1000000), [($"s", (1)%Z)]));
  ($"ns", (Some (1 # 1000000000), [($"s", (1)%Z)]));
  ($"minute", (Some (60 # 1), [($"s", (1)%Z)]));
  ($"min", (Some (60 # 1), [($"s", (1)%Z)]));
  ($"hour", (Some (3600 # 1), [($"s", (1)%Z)]));
  ($"h", (Some (3600 # 1), [($"s", (1)%Z)]));
  ($"day", (Some (86400 # 1), [($"s", (1)%Z)]));
  ($"week", (Some (604800 # 1), [($"s", (1)%Z)]));
  ($"month", (None, [($"s", (1)%Z)]));
  ($"year", (None, [($"s", (1)%Z)]));
  ($"yr", (None, [($"s", (1)%Z)]));
  ($"A", (Some (1 # 1), [($"A", (1)%Z)]));
  ($"ampere", (Some (1 # 1), [($"A", (1)%Z)]));
  ($"MA", (Some (1000000 # 1), [($"A", (1)%Z)]));
  ($"kA", (Some (1000 # 1), [($"A", (1)%Z)]));
  ($"mA", (Some (1 # 1000), [($"A", (1)%Z)]));
  ($"uA", (Some (1 # 1000000), [($"A", (1)%Z)]));
  ($"nA", (Some (1 # 1000000000), [($"A", (1)%Z)]));
  ($"pA", (Some (1 # 1000000000000), [($"A", (1)%Z)]));
  ($"mol", (Some (1 # 1), [($"mol", (1)%Z)]));
  ($"mole", (Some (1 # 1), [($"mol", (1)%Z)]));
  ($"mmol", (Some (1 # 1000), [($"mol", (1)%Z)]));
  ($"umol", (Some (1 # 1000000), [($"mol", (1)%Z)]));
  ($"mcmol", (Some (1 # 1000000), [($"mol", (1)%Z)]));
  ($"kmol", (Some (1000 # 1), [($"mol", (1)%Z)]));
  ($"cd", (Some (1 # 1), [($"cd", (1)%Z)]));
  ($"candela", (Some (1 # 1), [($"cd", (1)%Z)]));
  ($"radian", (Some (1 # 1), [($"radian", (1)%Z)]));
  ($"mradian", (Some (1 # 1000), [($"radian", (1)%Z)]));
  ($"uradian", (Some (1 # 1000000), [($"radian", (1)%Z)]));
  ($"deg", (None, [($"radian", (1)%Z)]));
  ($"degree", (None, [($"radian", (1)%Z)]));
  ($"sr", (Some (1 # 1), [($"sr", (1)%Z)]));
  ($"steradian", (Some (1 # 1), [($"sr", (1)%Z)]));
  ($"m2", (Some (1 # 1), [($"m", (2)%Z)]));
  ($"m^2", (Some (1 # 1), [($"m", (2)%Z)]));
  ($"nm2", (Some (1 # 1000000000000000000), [($"m", (2)%Z)]));
  ($"nm^2", (Some (1 # 1000000000000000000), [($"m", (2)%Z)]));
  ($"um2", (Some (1 # 1000000000000), [($"m", (2)%Z)]));
  ($"um^2", (Some (1 # 1000000000000), [($"m", (2)%Z)]));
  ($"mm2", (Some (1 # 1000000), [($"m", (2)%Z)]));
  ($"mm^2", (Some (1 # 1000000), [($"m", (2)%Z)]));
  ($"cm2", (Some (1 # 10000), [($"m", (2)%Z)]));
  ($"cm^2", (Some (1 # 10000), [($"m", (2)%Z)]));
  ($"dm2", (Some (1 # 100), [($"m", (2)%Z)]));
  ($"dm^2", (Some (1 # 100), [($"m", (2)%Z)]));
  ($"in2", (Some (16129 # 25000000), [($"m", (2)%Z)]));
  ($"in^2", (Some (16129 # 25000000), [($"m", (2)%Z)]));
  ($"ft2", (Some (145161 # 1562500), [($"m", (2)%Z)]));
  ($"ft^2", (Some (145161 # 1562500), [($"m", (2)%Z)]));
  ($"m3", (Some (1 # 1), [($"m", (3)%Z)]));
  ($"m^3", (Some (1 # 1), [($"m", (3)%Z)]));
  ($"nm3", (Some (1 # 1000000000000000000000000000), [($"m", (3)%Z)]));
  ($"nm^3", (Some (1 # 1000000000000000000000000000), [($"m", (3)%Z)]));
  ($"um3", (Some (1 # 1000000000000000000), [($"m", (3)%Z)]));
  ($"um^3", (Some (1 # 1000000000000000000), [($"m", (3)%Z)]));
  ($"mm3", (Some (1 # 1000000000), [($"m", (3)%Z)]));
  ($"mm^3", (Some (1 # 1000000000), [($"m", (3)%Z)]));
  ($"cm3", (Some (1 # 1000000), [($"m", (3)%Z)]));
  ($"cm^3", (Some (1 # 1000000), [($"m", (3)%Z)]));
  ($"dm3", (Some (1 # 1000), [($"m", (3)%Z)]));
  ($"dm^3", (Some (1 # 1000), [($"m", (3)%Z)]));
  ($"in3", (Some (2048383 # 125000000000), [($"m", (3)%Z)]));
  ($"in^3", (Some (2048383 # 125000000000), [($"m", (3)%Z)]));
  ($"ft3", (Some (55306341 # 1953125000), [($"m", (3)%Z)]));
  ($"ft^3", (Some (55306341 # 1953125000), [($"m", (3)%Z)]));
  ($"km3", (Some (1000000000 # 1), [($"m", (3)%Z)]));
  ($"km^3", (Some (1000000000 # 1), [($"m", (3)%Z)]));
  ($"hectare", (Some (10000 # 1), [($"m", (2)%Z)]));
  ($"barn", (Some (1 # 10000000000000000000000000000), [($"m", (2)%Z)]));
  ($"acre", (None, [($"m", (2)%Z)]));
  ($"l", (Some (1 # 1000), [($"m", (3)%Z)]));
  ($"L", (Some (1 # 1000), [($"m", (3)%Z)]));
  ($"liter", (Some (1 # 1000), [($"m", (3)%Z)]));
  ($"litre", (Some (1 # 1000), [($"m", (3)%Z)]));
  ($"ml", (Some (1 # 1000000), [($"m", (3)%Z)]));
  ($"mL", (Some (1 # 1000000), [($"m", (3)%Z)]));
  ($"cc", (Some (1 # 1000000), [($"m", (3)%Z)]));
  ($"ul", (Some (1 # 1000000000), [($"m", (3)%Z)]));
  ($"uL", (Some (1 # 1000000000), [($"m", (3)%Z)]));
  ($"mcl", (Some (1 # 1000000000), [($"m", (3)%Z)]));
  ($"mcL", (Some (1 # 1000000000), [($"m", (3)%Z)]));
  ($"gal", (None, [($"m", (3)%Z)]));
  ($"gallon", (None, [($"m", (3)%Z)]));
  ($"quart", (None, [($"m", (3)%Z)]));
  ($"mps", (Some (1 # 1), [($"m", (1)%Z); ($"s", (-1)%Z)]));
  ($"cmps", (Some (1 # 100), [($"m", (1)%Z); ($"s", (-1)%Z)]));
  ($"mph", (Some (1397 # 3125), [($"m", (1)%Z); ($"s", (-1)%Z)]));
  ($"knot", (Some (463 # 900), [($"m", (1)%Z); ($"s", (-1)%Z)]));
  ($"fps", (Some (381 # 1250), [($"m", (1)%Z); ($"s", (-1)%Z)]));
  ($"mpss", (Some (1 # 1), [($"m", (1)%Z); ($"s", (-2)%Z)]));
  ($"fpss", (Some (381 # 1250), [($"m", (1)%Z); ($"s", (-2)%Z)]));
  ($"gravity", (Some (196133 # 20000), [($"m", (1)%Z); ($"s", (-2)%Z)]));
  ($"Hz", (Some (1 # 1), [($"s", (-1)%Z)]));
  ($"hertz", (Some (1 # 1), [($"s", (-1)%Z)]));
  ($"kHz", (Some (1000 # 1), [($"s", (-1)%Z)]));
  ($"MHz", (Some (1000000 # 1), [($"s", (-1)%Z)]));
  ($"GHz", (Some (1000000000 # 1), [($"s", (-1)%Z)]));
  ($"rpm", (Some (1 # 60), [($"s", (-1)%Z)]));
  ($"gps", (None, [($"m", (3)%Z); ($"s", (-1)%Z)]));
  ($"gpm", (None, [($"m", (3)%Z); ($"s", (-1)%Z)]));
  ($"gph", (None, [($"m", (3)%Z); ($"s", (-1)%Z)]));
  ($"cfs", (Some (55306341 # 1953125000), [($"m", (3)%Z); ($"s", (-1)%Z)]));
  ($"cfm", (Some (18435447 # 39062500000), [($"m", (3)%Z); ($"s", (-1)%Z)]));
  ($"lps", (Some (1 # 1000), [($"m", (3)%Z); ($"s", (-1)%Z)]));
  ($"lpm", (Some (1 # 60000), [($"m", (3)%Z); ($"s", (-1)%Z)]));
  ($"N", (Some (1000 # 1), [($"g", (1)%Z); ($"m", (1)%Z); ($"s", (-2)%Z)]));
  ($"newton", (Some (1000 # 1), [($"g", (1)%Z); ($"m", (1)%Z); ($"s", (-2)%Z)]));
  ($"kN", (Some (1000000 # 1), [($"g", (1)%Z); ($"m", (1)%Z); ($"s", (-2)%Z)]));
  ($"dyne", (Some (1 # 100), [($"g", (1)%Z); ($"m", (1)%Z); ($"s", (-2)%Z)]));
  ($"lbf", (None, [($"g", (1)%Z); ($"m", (1)%Z); ($"s", (-2)%Z)]));
  ($"Pa", (Some (1000 # 1), [($"g", (1)%Z); ($"m", (-1)%Z); ($"s", (-2)%Z)]));
  ($"pascal", (Some (1000 # 1), [($"g", (1)%Z); ($"m", (-1)%Z); ($"s", (-2)%Z)]));
  ($"kPa", (Some (1000000 # 1), [($"g", (1)%Z); ($"m", (-1)%Z); ($"s", (-2)%Z)]));
  ($"MPa", (Some (1000000000 # 1), [($"g", (1)%Z); ($"m", (-1)%Z); ($"s", (-2)%Z)]));
  ($"GPa", (Some (1000000000000 # 1), [($"g", (1)%Z); ($"m", (-1)%Z); ($"s", (-2)%Z)]));
  ($"atm", (Some (101325000 # 1), [($"g", (1)%Z); ($"m", (-1)%Z); ($"s", (-2)%Z)]));
  ($"bar", (Some (100000000 # 1), [($"g", (1)%Z); ($"m", (-1)%Z); ($"s", (-2)%Z)]));
  ($"mbar", (Some (100000 # 1), [($"g", (1)%Z); ($"m", (-1)%Z); ($"s", (-2)%Z)]));
  ($"kbar", (Some (100000000000 # 1), [($"g", (1)%Z); ($"m", (-1)%Z); ($"s", (-2)%Z)]));
  ($"Mbar", (Some (100000000000000 # 1), [($"g", (1)%Z); ($"m", (-1)%Z); ($"s", (-2)%Z)]));
  ($"mmHg", (None, [($"g", (1)%Z); ($"m", (-1)%Z); ($"s", (-2)%Z)]));
  ($"inHg", (None, [($"g", (1)%Z); ($"m", (-1)%Z); ($"s", (-2)%Z)]));
  ($"psi", (None, [($"g", (1)%Z); ($"m", (-1)%Z); ($"s", (-2)%Z)]));
  ($"kpsi", (None, [($"g", (1)%Z); ($"m", (-1)%Z); ($"s", (-2)%Z)]));
  ($"Mpsi", (None, [($"g", (1)%Z); ($"m", (-1)%Z); ($"s", (-2)%Z)]));
  ($"psf", (None, [($"g", (1)%Z); ($"m", (-1)%Z); ($"s", (-2)%Z)]));
  ($"torr", (None, [($"g", (1)%Z); ($"m", (-1)%Z); ($"s", (-2)%Z)]));
  ($"inH2O", (None, [($"g", (1)%Z); ($"m", (-1)%Z); ($"s", (-2)%Z)]));
  ($"ftH2O", (None, [($"g", (1)%Z); ($"m", (-1)%Z); ($"s", (-2)%Z)]));
  ($"J", (Some (1000 # 1), [($"g", (1)%Z); ($"m", (2)%Z); ($"s", (-2)%Z)]));
  ($"joule", (Some (1000 # 1), [($"g", (1)%Z); ($"m", (2)%Z); ($"s", (-2)%Z)]));
  ($"kJ", (Some (1000000 # 1), [($"g", (1)%Z); ($"m", (2)%Z); ($"s", (-2)%Z)]));
  ($"MJ", (Some (1000000000 # 1), [($"g", (1)%Z); ($"m", (2)%Z); ($"s", (-2)%Z)]));
  ($"erg", (Some (1 # 10000), [($"g", (1)%Z); ($"m", (2)%Z); ($"s", (-2)%Z)]));
  ($"cal", (Some (4184 # 1), [($"g", (1)%Z); ($"m", (2)%Z); ($"s", (-2)%Z)]));
  ($"calorie", (Some (4184 # 1), [($"g", (1)%Z); ($"m", (2)%Z); ($"s", (-2)%Z)]));
  ($"kcal", (Some (4184000 # 1), [($"g", (1)%Z); ($"m", (2)%Z); ($"s", (-2)%Z)]));
  ($"eV", (None, [($"g", (1)%Z); ($"m", (2)%Z); ($"s", (-2)%Z)]));
  ($"keV", (None, [($"g", (1)%Z); ($"m", (2)%Z); ($"s", (-2)%Z)]));
  ($"MeV", (None, [($"g", (1)%Z); ($"m", (2)%Z); ($"s", (-2)%Z)]));
  ($"GeV", (None, [($"g", (1)%Z); ($"m", (2)%Z); ($"s", (-2)%Z)]));
  ($"btu", (None, [($"g", (1)%Z); ($"m", (2)%Z); ($"s", (-2)%Z)]));
  ($"W", (Some (1000 # 1), [($"g", (1)%Z); ($"m", (2)%Z); ($"s", (-3)%Z)]));
  ($"watt", (Some (1000 # 1), [($"g", (1)%Z); ($"m", (2)%Z); ($"s", (-3)%Z)]));
  ($"C", (Some (1 # 1), [($"A", (1)%Z); ($"s", (1)%Z)]));
  ($"coulomb", (Some (1 # 1), [($"A", (1)%Z); ($"s", (1)%Z)]));
  ($"mC", (Some (1 # 1000), [($"A", (1)%Z); ($"s", (1)%Z)]));
  ($"V", (Some (1000 # 1), [($"g", (1)%Z); ($"m", (2)%Z); ($"s", (-3)%Z); ($"A", (-1)%Z)]));
  ($"volt", (Some (1000 # 1), [($"g", (1)%Z); ($"m", (2)%Z); ($"s", (-3)%Z); ($"A", (-1)%Z)]));
  ($"mV", (Some (1 # 1), [($"g", (1)%Z); ($"m", (2)%Z); ($"s", (-3)%Z); ($"A", (-1)%Z)]));
  ($"ohm", (Some (1000 # 1), [($"g", (1)%Z); ($"m", (2)%Z); ($"s", (-3)%Z); ($"A", (-2)%Z)]));
  ($"S", (Some (1 # 1000), [($"g", (-1)%Z); ($"m", (-2)%Z); ($"s", (3)%Z); ($"A", (2)%Z)]));
  ($"siemens", (Some (1 # 1000), [($"g", (-1)%Z); ($"m", (-2)%Z); ($"s", (3)%Z); ($"A", (2)%Z)]));
  ($"F", (Some (1 # 1000), [($"g", (-1)%Z); ($"m", (-2)%Z); ($"s", (4)%Z); ($"A", (2)%Z)]));
  ($"farad", (Some (1 # 1000), [($"g", (-1)%Z); ($"m", (-2)%Z); ($"s", (4)%Z); ($"A", (2)%Z)]));
  ($"mF", (Some (1 # 1000000), [($"g", (-1)%Z); ($"m", (-2)%Z); ($"s", (4)%Z); ($"A", (2)%Z)]));
  ($"uF", (Some (1 # 1000000000), [($"g", (-1)%Z); ($"m", (-2)%Z); ($"s", (4)%Z); ($"A", (2)%Z)]));
  ($"nF", (Some (1 # 1000000000000), [($"g", (-1)%Z); ($"m", (-2)%Z); ($"s", (4)%Z); ($"A", (2)%Z)]));
  ($"pF", (Some (1 # 1000000000000000), [($"g", (-1)%Z); ($"m", (-2)%Z); ($"s", (4)%Z); ($"A", (2)%Z)]));
  ($"Wb", (Some (1000 # 1), [($"g", (1)%Z); ($"m", (2)%Z); ($"s", (-2)%Z); ($"A", (-1)%Z)]));
  ($"weber", (Some (1000 # 1), [($"g", (1)%Z); ($"m", (2)%Z); ($"s", (-2)%Z); ($"A", (-1)%Z)]));
  ($"T", (Some (1000 # 1), [($"g", (1)%Z); ($"s", (-2)%Z); ($"A", (-1)%Z)]));
  ($"tesla", (Some (1000 # 1), [($"g", (1)%Z); ($"s", (-2)%Z); ($"A", (-1)%Z)]));
  ($"gauss", (Some (1 # 10), [($"g", (1)%Z); ($"s", (-2)%Z); ($"A", (-1)%Z)]));
  ($"H", (Some (1000 # 1), [($"g", (1)%Z); ($"m", (2)%Z); ($"s", (-2)%Z); ($"A", (-2)%Z)]));
  ($"henry", (Some (1000 # 1), [($"g", (1)%Z); ($"m", (2)%Z); ($"s", (-2)%Z); ($"A", (-2)%Z)]));
  ($"mH", (Some (1 # 1), [($"g", (1)%Z); ($"m", (2)%Z); ($"s", (-2)%Z); ($"A", (-2)%Z)]));
  ($"uH", (Some (1 # 1000), [($"g", (1)%Z); ($"m", (2)%Z); ($"s", (-2)%Z); ($"A", (-2)%Z)]));
  ($"molal", (Some (1 # 1000), [($"mol", (1)%Z); ($"g", (-1)%Z)]));
  ($"mmolal", (Some (1 # 1000000), [($"mol", (1)%Z); ($"g", (-1)%Z)]));
  ($"umolal", (Some (1 # 1000000000), [($"mol", (1)%Z); ($"g", (-1)%Z)]));
  ($"mcmolal", (Some (1 # 1000000000), [($"mol", (1)%Z); ($"g", (-1)%Z)]));
  ($"nmolal", (Some (1 # 1000000000000), [($"mol", (1)%Z); ($"g", (-1)%Z)]));
  ($"molar", (Some (1000 # 1), [($"mol", (1)%Z); ($"m", (-3)%Z)]));
  ($"mmolar", (Some (1 # 1), [($"mol", (1)%Z); ($"m", (-3)%Z)]));
  ($"umolar", (Some (1 # 1000), [($"mol", (1)%Z); ($"m", (-3)%Z)]));
  ($"mcmolar", (Some (1 # 1000), [($"mol", (1)%Z); ($"m", (-3)%Z)]));
  ($"nmolar", (Some (1 # 1000000), [($"mol", (1)%Z); ($"m", (-3)%Z)]));
  ($"eq", (Some (1 # 1), [($"eq", (1)%Z)]));
  ($"meq", (Some (1 # 1000), [($"eq", (1)%Z)]));
  ($"ueq", (Some (1 # 1000000), [($"eq", (1)%Z)]));
  ($"mceq", (Some (1 # 1000000), [($"eq", (1)%Z)]));
  ($"neq", (Some (1 # 1000000000), [($"eq", (1)%Z)]))
].

(* The exponent of base symbol [k] in a list of exponents. *)
Definition exponent (d : list (str * Z)) (k : str) : Z :=
  fold_right (fun p n => if str_eqb (fst p) k then (snd p + n)%Z else n) 0%Z d.
