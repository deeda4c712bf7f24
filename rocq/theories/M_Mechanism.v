(* Model of Reaktoro/Reactions/Mineral/MineralCatalyst.cpp and
   Reaktoro/Reactions/Mineral/MineralMechanism.cpp: the mechanisms of mineral
   reactions and their catalysts, written as texts. *)
From Coq Require Import Reals Qreals.
From Verif Require Import Base M_Strings M_Formula M_Units.

(* A double; the value of a decimal numeral is a rational, 10^value is a real. *)
(* Reaktoro/Common/StringUtils.hpp:153-157, tofloat. *)
Definition tofloat (s : str) : R := Q2R (atof s).

(* std::string::find(sub) != npos *)
Definition has (sub s : str) : bool := match find_sub sub s with Some _ => true | None => false end.

(* std::vector::operator[] *)
Definition word (ws : list str) (i : nat) : outcome str := match nth_error ws i with Some w => Ok w | None => UB end.

(* Reaktoro/Common/Units.hpp:46-50, convert, of a real value: the slope and the
   intercept are those of M_Units. *)
Definition convertR (value : R) (from to : str) : outcome R :=
  if str_eqb from to then Ok value
  else bind (slope from to) (fun a => bind (intercept from to) (fun b => Ok (value * Q2R a + Q2R b)%R)).

(* Reaktoro/Reactions/Mineral/MineralCatalyst.hpp:52-60 *)
Record MineralCatalyst := { species : str; quantity : str; power : R }.

(* Reaktoro/Reactions/Mineral/MineralCatalyst.cpp:35-44, checkCatalystQuantity *)
Definition checkCatalystQuantity (q : str) : outcome unit :=
  if str_eqb q $"a" || str_eqb q $"activity" || str_eqb q $"p" || str_eqb q $"pressure" then Ok tt else Err.

(* Reaktoro/Reactions/Mineral/MineralCatalyst.cpp:51-55 *)
Definition catalyst (sp q : str) (pw : R) : outcome MineralCatalyst :=
  bind (checkCatalystQuantity q) (fun _ => Ok {| species := sp; quantity := q; power := pw |}).

(* Reaktoro/Reactions/Mineral/MineralCatalyst.cpp:57-77: the words are read with
   operator[], whose index may be out of range. *)
Definition catalyst_text (text : str) : outcome MineralCatalyst :=
  let words := split text $"= " in
  if negb (Nat.eqb (length words) 2) then Err else
  bind (word words 1) (fun w1 =>
  bind (word words 0) (fun w0 =>
  let parts := split w0 $"[]" in
  bind (word parts 1) (fun sp =>
  bind (word parts 0) (fun q =>
  catalyst sp q (tofloat w1))))).

(* Reaktoro/Reactions/Mineral/MineralCatalyst.cpp:84-87, operator== *)
Definition catalyst_eq (a b : MineralCatalyst) : Prop := species a = species b.

(* Reaktoro/Reactions/Mineral/MineralMechanism.hpp:87-101 *)
Record MineralMechanism := { kappa : R; Ea : R; p : R; q : R; catalysts : list MineralCatalyst }.
Definition default : MineralMechanism := {| kappa := 0; Ea := 0; p := 1; q := 1; catalysts := [] |}.

(* Reaktoro/Reactions/Mineral/MineralMechanism.cpp:47-52 and 102-107, setRateConstant *)
Definition setRateConstant (m : MineralMechanism) (value : R) (unit : str) : outcome MineralMechanism :=
  bind (convertible unit $"mol/(m2*s)") (fun ok =>
  if ok : bool then bind (convertR value unit $"mol/(m2*s)") (fun k => Ok {| kappa := k; Ea := Ea m; p := p m; q := q m; catalysts := catalysts m |})
  else Err).

(* Reaktoro/Reactions/Mineral/MineralMechanism.cpp:54-59 and 109-114, setActivationEnergy *)
Definition setActivationEnergy (m : MineralMechanism) (value : R) (unit : str) : outcome MineralMechanism :=
  bind (convertible unit $"kJ/mol") (fun ok =>
  if ok : bool then bind (convertR value unit $"kJ/mol") (fun e => Ok {| kappa := kappa m; Ea := e; p := p m; q := q m; catalysts := catalysts m |})
  else Err).

(* Reaktoro/Reactions/Mineral/MineralMechanism.cpp:116-126, setPowerP and setPowerQ *)
Definition setPowerP (m : MineralMechanism) (v : R) : MineralMechanism := {| kappa := kappa m; Ea := Ea m; p := v; q := q m; catalysts := catalysts m |}.
Definition setPowerQ (m : MineralMechanism) (v : R) : MineralMechanism := {| kappa := kappa m; Ea := Ea m; p := p m; q := v; catalysts := catalysts m |}.

(* Reaktoro/Reactions/Mineral/MineralMechanism.cpp:128-146, setCatalysts *)
Definition setCatalysts (m : MineralMechanism) (cs : list MineralCatalyst) : MineralMechanism := {| kappa := kappa m; Ea := Ea m; p := p m; q := q m; catalysts := cs |}.

(* Reaktoro/Reactions/Mineral/MineralMechanism.cpp:73-98: one option of the text *)
Definition isCatalyst (option : str) : bool := has $"a[" option || has $"activity[" option || has $"p[" option || has $"pressure[" option.
Definition addOption (m : MineralMechanism) (option : str) : outcome MineralMechanism :=
  if isCatalyst option then bind (catalyst_text option) (fun c => Ok (setCatalysts m (catalysts m ++ [c]))) else
  let words := split option $"= " in
  if Nat.eqb (length words) 0 || Nat.ltb 3 (length words) then Err else
  bind (word words 0) (fun quantity =>
  bind (word words 1) (fun w1 =>
  let value := tofloat w1 in
  if (str_eqb quantity $"logk" || str_eqb quantity $"Ea") && Nat.ltb (length words) 3 then Err else
  let unit := nth 2 words [] in
  if str_eqb quantity $"logk" then setRateConstant m (Rpower 10 value) unit
  else if str_eqb quantity $"Ea" then setActivationEnergy m value unit
  else if str_eqb quantity $"p" then Ok (setPowerP m value)
  else if str_eqb quantity $"q" then Ok (setPowerQ m value)
  else Err)).

(* Reaktoro/Reactions/Mineral/MineralMechanism.cpp:68-100: the constructor *)
Fixpoint addOptions (m : MineralMechanism) (options : list str) : outcome MineralMechanism :=
  match options with
  | [] => Ok m
  | o :: os => bind (addOption m o) (fun m' => addOptions m' os)
  end.
Definition mechanism (text : str) : outcome MineralMechanism := addOptions default (split text $";").

(* Reaktoro/Reactions/Mineral/MineralMechanism.cpp:148-156, operator< and operator== *)
Definition mechanism_lt (a b : MineralMechanism) : Prop := (kappa a < kappa b)%R.
Definition mechanism_eq (a b : MineralMechanism) : Prop := kappa a = kappa b.
