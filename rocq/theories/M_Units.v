(* Model of Reaktoro/Common/Units.cpp and Units.hpp. *)
From Coq Require Import Qpower.
From Verif Require Import Base.

(* Reaktoro/Common/Units.cpp:63-68, StringUnit: factor, symbol, power. *)
Definition StringUnit := (Q * str * Z)%type.
Definition DerivedUnit := list StringUnit.
Definition su_factor (u : StringUnit) : Q := fst (fst u).
Definition su_symbol (u : StringUnit) : str := snd (fst u).
Definition su_power (u : StringUnit) : Z := snd u.

(* Reaktoro/Common/Units.cpp:97-386, derivedUnitsMap, with the prefixes of
   lines 79-95 as exact decimals. *)
Definition derivedUnitsMap : list (str * DerivedUnit) := [
  (* Nondimensional Unit *)
  ($"1", [(1 # 1, $"1", 1%Z)]);
  ($"percent", [(1 # 100, $"1", 1%Z)]);
  ($"permille", [(1 # 1000, $"1", 1%Z)]);
  ($"ppm", [(1 # 1000000, $"1", 1%Z)]);
  ($"ppb", [(1 # 1000000000, $"1", 1%Z)]);
  ($"ppt", [(1 # 1000000000000, $"1", 1%Z)]);
  (* Mass Units *)
  ($"g", [(1 # 1, $"g", 1%Z)]);
  ($"kg", [(1000 # 1, $"g", 1%Z)]);
  ($"mg", [(1 # 1000, $"g", 1%Z)]);
  ($"mcg", [(1 # 1000000, $"g", 1%Z)]);
  ($"ug", [(1 # 1000000, $"g", 1%Z)]);
  ($"ng", [(1 # 1000000000, $"g", 1%Z)]);
  ($"tonne", [(1000 # 1, $"kg", 1%Z)]);
  ($"lb", [(45359237 # 100000, $"g", 1%Z)]);
  ($"amu", [(1660538921 # 1000000000000000000000000000000000000, $"kg", 1%Z)]);
  ($"ton", [(2000 # 1, $"lb", 1%Z)]);
  ($"gram", [(1 # 1, $"g", 1%Z)]);
  ($"kilogram", [(1 # 1, $"kg", 1%Z)]);
  ($"lbm", [(1 # 1, $"lb", 1%Z)]);
  (* Length Units *)
  ($"m", [(1 # 1, $"m", 1%Z)]);
  ($"km", [(1000 # 1, $"m", 1%Z)]);
  ($"dm", [(1 # 10, $"m", 1%Z)]);
  ($"cm", [(1 # 100, $"m", 1%Z)]);
  ($"mm", [(1 # 1000, $"m", 1%Z)]);
  ($"um", [(1 # 1000000, $"m", 1%Z)]);
  ($"nm", [(1 # 1000000000, $"m", 1%Z)]);
  ($"Angstrom", [(1 # 10000000000, $"m", 1%Z)]);
  ($"in", [(127 # 5, $"mm", 1%Z)]);
  ($"mil", [(1 # 1000, $"in", 1%Z)]);
  ($"ft", [(12 # 1, $"in", 1%Z)]);
  ($"yd", [(3 # 1, $"ft", 1%Z)]);
  ($"mi", [(5280 # 1, $"ft", 1%Z)]);
  ($"nauticalmile", [(1852 # 1, $"m", 1%Z)]);
  ($"lightyear", [(9460730472580800 # 1, $"m", 1%Z)]);
  ($"au", [(149597870700 # 1, $"m", 1%Z)]);
  ($"feet", [(1 # 1, $"ft", 1%Z)]);
  ($"foot", [(1 # 1, $"ft", 1%Z)]);
  ($"inch", [(1 # 1, $"in", 1%Z)]);
  ($"meter", [(1 # 1, $"m", 1%Z)]);
  ($"mile", [(1 # 1, $"mi", 1%Z)]);
  ($"yard", [(1 # 1, $"yd", 1%Z)]);
  (* Time Units *)
  ($"s", [(1 # 1, $"s", 1%Z)]);
  ($"ms", [(1 # 1000, $"s", 1%Z)]);
  ($"us", [(1 # 1000000, $"s", 1%Z)]);
  ($"ns", [(1 # 1000000000, $"s", 1%Z)]);
  ($"minute", [(60 # 1, $"s", 1%Z)]);
  ($"min", [(60 # 1, $"s", 1%Z)]);
  ($"hour", [(3600 # 1, $"s", 1%Z)]);
  ($"h", [(3600 # 1, $"s", 1%Z)]);
  ($"day", [(24 # 1, $"hour", 1%Z)]);
  ($"week", [(7 # 1, $"day", 1%Z)]);
  ($"month", [(608737 # 20000, $"day", 1%Z)]);
  ($"year", [(1826211 # 5000, $"day", 1%Z)]);
  ($"yr", [(1826211 # 5000, $"day", 1%Z)]);
  ($"second", [(1 # 1, $"s", 1%Z)]);
  (* Electrical Current Units *)
  ($"A", [(1 # 1, $"A", 1%Z)]);
  ($"MA", [(1000000 # 1, $"A", 1%Z)]);
  ($"kA", [(1000 # 1, $"A", 1%Z)]);
  ($"mA", [(1 # 1000, $"A", 1%Z)]);
  ($"uA", [(1 # 1000000, $"A", 1%Z)]);
  ($"nA", [(1 # 1000000000, $"A", 1%Z)]);
  ($"pA", [(1 # 1000000000000, $"A", 1%Z)]);
  ($"ampere", [(1 # 1, $"A", 1%Z)]);
  (* Amount of Substance Units *)
  ($"mol", [(1 # 1, $"mol", 1%Z)]);
  ($"mmol", [(1 # 1000, $"mol", 1%Z)]);
  ($"umol", [(1 # 1000000, $"mol", 1%Z)]);
  ($"mcmol", [(1 # 1000000, $"mol", 1%Z)]);
  ($"kmol", [(1000 # 1, $"mol", 1%Z)]);
  ($"mole", [(1 # 1, $"mol", 1%Z)]);
  (* Luminous Intensity Units *)
  ($"cd", [(1 # 1, $"cd", 1%Z)]);
  ($"candela", [(1 # 1, $"cd", 1%Z)]);
  (* Angle Units *)
  ($"radian", [(1 # 1, $"radian", 1%Z)]);
  ($"mradian", [(1 # 1000, $"radian", 1%Z)]);
  ($"uradian", [(1 # 1000000, $"radian", 1%Z)]);
  ($"deg", [(314159265359 # 18000000000000, $"radian", 1%Z)]);
  ($"degree", [(1 # 1, $"deg", 1%Z)]);
  (* Solid Angle Units *)
  ($"sr", [(1 # 1, $"sr", 1%Z)]);
  ($"steradian", [(1 # 1, $"sr", 1%Z)]);
  (* Area Units *)
  ($"m2", [(1 # 1, $"m", 2%Z)]);
  ($"m^2", [(1 # 1, $"m", 2%Z)]);
  ($"nm2", [(1 # 1, $"nm", 2%Z)]);
  ($"nm^2", [(1 # 1, $"nm", 2%Z)]);
  ($"um2", [(1 # 1, $"um", 2%Z)]);
  ($"um^2", [(1 # 1, $"um", 2%Z)]);
  ($"mm2", [(1 # 1, $"mm", 2%Z)]);
  ($"mm^2", [(1 # 1, $"mm", 2%Z)]);
  ($"cm2", [(1 # 1, $"cm", 2%Z)]);
  ($"cm^2", [(1 # 1, $"cm", 2%Z)]);
  ($"dm2", [(1 # 1, $"dm", 2%Z)]);
  ($"dm^2", [(1 # 1, $"dm", 2%Z)]);
  ($"in2", [(1 # 1, $"in", 2%Z)]);
  ($"in^2", [(1 # 1, $"in", 2%Z)]);
  ($"ft2", [(1 # 1, $"ft", 2%Z)]);
  ($"ft^2", [(1 # 1, $"ft", 2%Z)]);
  ($"hectare", [(10000 # 1, $"m2", 1%Z)]);
  ($"acre", [(20234363 # 5000, $"m2", 1%Z)]);
  ($"barn", [(1 # 10000000000000000000000000000, $"m2", 1%Z)]);
  (* Volume Units *)
  ($"m3", [(1 # 1, $"m", 3%Z)]);
  ($"m^3", [(1 # 1, $"m", 3%Z)]);
  ($"nm3", [(1 # 1, $"nm", 3%Z)]);
  ($"nm^3", [(1 # 1, $"nm", 3%Z)]);
  ($"um3", [(1 # 1, $"um", 3%Z)]);
  ($"um^3", [(1 # 1, $"um", 3%Z)]);
  ($"mm3", [(1 # 1, $"mm", 3%Z)]);
  ($"mm^3", [(1 # 1, $"mm", 3%Z)]);
  ($"cm3", [(1 # 1, $"cm", 3%Z)]);
  ($"cm^3", [(1 # 1, $"cm", 3%Z)]);
  ($"dm3", [(1 # 1, $"dm", 3%Z)]);
  ($"dm^3", [(1 # 1, $"dm", 3%Z)]);
  ($"km3", [(1 # 1, $"km", 3%Z)]);
  ($"km^3", [(1 # 1, $"km", 3%Z)]);
  ($"in3", [(1 # 1, $"in", 3%Z)]);
  ($"in^3", [(1 # 1, $"in", 3%Z)]);
  ($"ft3", [(1 # 1, $"ft", 3%Z)]);
  ($"ft^3", [(1 # 1, $"ft", 3%Z)]);
  ($"l", [(1 # 1000, $"m3", 1%Z)]);
  ($"ml", [(1 # 1000, $"l", 1%Z)]);
  ($"ul", [(1 # 1000000, $"l", 1%Z)]);
  ($"mcl", [(1 # 1000000, $"l", 1%Z)]);
  ($"L", [(1 # 1000, $"m3", 1%Z)]);
  ($"mL", [(1 # 1000, $"L", 1%Z)]);
  ($"uL", [(1 # 1000000, $"L", 1%Z)]);
  ($"mcL", [(1 # 1000000, $"l", 1%Z)]);
  ($"gal", [(454609 # 100000, $"l", 1%Z)]);
  ($"quart", [(1 # 4, $"gal", 1%Z)]);
  ($"cc", [(1 # 1, $"cm3", 1%Z)]);
  ($"gallon", [(1 # 1, $"gal", 1%Z)]);
  ($"liter", [(1 # 1, $"l", 1%Z)]);
  ($"litre", [(1 # 1, $"l", 1%Z)]);
  (* Velocity Units *)
  ($"mps", [(1 # 1, $"m", 1%Z); (1 # 1, $"s", (-1)%Z)]);
  ($"cmps", [(1 # 1, $"cm", 1%Z); (1 # 1, $"s", (-1)%Z)]);
  ($"mph", [(1 # 1, $"mile", 1%Z); (1 # 1, $"hour", (-1)%Z)]);
  ($"knot", [(1 # 1, $"nauticalmile", 1%Z); (1 # 1, $"hour", (-1)%Z)]);
  ($"fps", [(1 # 1, $"foot", 1%Z); (1 # 1, $"s", (-1)%Z)]);
  (* Acceleration Units *)
  ($"mpss", [(1 # 1, $"mps", 1%Z); (1 # 1, $"s", (-1)%Z)]);
  ($"fpss", [(1 # 1, $"fps", 1%Z); (1 # 1, $"s", (-1)%Z)]);
  ($"gravity", [(196133 # 20000, $"mpss", 1%Z)]);
  (* Frequency Units *)
  ($"Hz", [(1 # 1, $"s", (-1)%Z)]);
  ($"kHz", [(1000 # 1, $"Hz", 1%Z)]);
  ($"MHz", [(1000000 # 1, $"Hz", 1%Z)]);
  ($"GHz", [(1000000000 # 1, $"Hz", 1%Z)]);
  ($"rpm", [(1 # 1, $"minute", (-1)%Z)]);
  ($"hertz", [(1 # 1, $"Hz", 1%Z)]);
  (* Flow Rate Units *)
  ($"gps", [(1 # 1, $"gal", 1%Z); (1 # 1, $"s", (-1)%Z)]);
  ($"gpm", [(1 # 1, $"gal", 1%Z); (1 # 1, $"minute", (-1)%Z)]);
  ($"gph", [(1 # 1, $"gal", 1%Z); (1 # 1, $"hour", (-1)%Z)]);
  ($"cfs", [(1 # 1, $"ft3", 1%Z); (1 # 1, $"s", (-1)%Z)]);
  ($"cfm", [(1 # 1, $"ft3", 1%Z); (1 # 1, $"minute", (-1)%Z)]);
  ($"lps", [(1 # 1, $"liter", 1%Z); (1 # 1, $"s", (-1)%Z)]);
  ($"lpm", [(1 # 1, $"liter", 1%Z); (1 # 1, $"minute", (-1)%Z)]);
  (* Force Units *)
  ($"N", [(1 # 1, $"kg", 1%Z); (1 # 1, $"m", 1%Z); (1 # 1, $"s", (-2)%Z)]);
  ($"kN", [(1000 # 1, $"N", 1%Z)]);
  ($"lbf", [(222411081 # 50000000, $"N", 1%Z)]);
  ($"dyne", [(1 # 100000, $"N", 1%Z)]);
  ($"newton", [(1 # 1, $"N", 1%Z)]);
  (* Pressure Units *)
  ($"Pa", [(1 # 1, $"N", 1%Z); (1 # 1, $"m2", (-1)%Z)]);
  ($"kPa", [(1000 # 1, $"Pa", 1%Z)]);
  ($"MPa", [(1000000 # 1, $"Pa", 1%Z)]);
  ($"GPa", [(1000000000 # 1, $"Pa", 1%Z)]);
  ($"atm", [(101325 # 1, $"Pa", 1%Z)]);
  ($"mmHg", [(13332239 # 100000, $"Pa", 1%Z)]);
  ($"inHg", [(16931943 # 5000, $"Pa", 1%Z)]);
  ($"psi", [(1 # 1, $"lbf", 1%Z); (1 # 1, $"in2", (-1)%Z)]);
  ($"kpsi", [(1000 # 1, $"psi", 1%Z)]);
  ($"Mpsi", [(1000000 # 1, $"psi", 1%Z)]);
  ($"psf", [(1 # 1, $"lbf", 1%Z); (1 # 1, $"ft2", (-1)%Z)]);
  ($"bar", [(100000 # 1, $"Pa", 1%Z)]);
  ($"mbar", [(100 # 1, $"Pa", 1%Z)]);
  ($"kbar", [(1000 # 1, $"bar", 1%Z)]);
  ($"Mbar", [(1000000 # 1, $"bar", 1%Z)]);
  ($"torr", [(2083162 # 15625, $"Pa", 1%Z)]);
  ($"inH2O", [(24908891 # 100000, $"Pa", 1%Z)]);
  ($"ftH2O", [(12 # 1, $"inH2O", 1%Z)]);
  ($"pascal", [(1 # 1, $"Pa", 1%Z)]);
  (* Energy Units *)
  ($"J", [(1 # 1, $"N", 1%Z); (1 # 1, $"m", 1%Z)]);
  ($"kJ", [(1000 # 1, $"J", 1%Z)]);
  ($"MJ", [(1000000 # 1, $"J", 1%Z)]);
  ($"erg", [(1 # 1, $"dyne", 1%Z); (1 # 1, $"cm", 1%Z)]);
  ($"cal", [(523 # 125, $"J", 1%Z)]);
  ($"kcal", [(1000 # 1, $"cal", 1%Z)]);
  ($"eV", [(160217657 # 1000000000000000000000000000, $"J", 1%Z)]);
  ($"keV", [(1000 # 1, $"eV", 1%Z)]);
  ($"MeV", [(1000000 # 1, $"eV", 1%Z)]);
  ($"GeV", [(1000000000 # 1, $"eV", 1%Z)]);
  ($"btu", [(21101117 # 20000, $"J", 1%Z)]);
  ($"calorie", [(1 # 1, $"cal", 1%Z)]);
  ($"joule", [(1 # 1, $"J", 1%Z)]);
  (* Power Units *)
  ($"W", [(1 # 1, $"J", 1%Z); (1 # 1, $"s", (-1)%Z)]);
  ($"watt", [(1 # 1, $"W", 1%Z)]);
  (* Charge Units *)
  ($"C", [(1 # 1, $"A", 1%Z); (1 # 1, $"s", 1%Z)]);
  ($"coulomb", [(1 # 1, $"C", 1%Z)]);
  ($"mC", [(1 # 1000, $"C", 1%Z)]);
  (* Voltage Units *)
  ($"V", [(1 # 1, $"J", 1%Z); (1 # 1, $"C", (-1)%Z)]);
  ($"volt", [(1 # 1, $"V", 1%Z)]);
  ($"mV", [(1 # 1000, $"V", 1%Z)]);
  (* Resistance Units *)
  ($"ohm", [(1 # 1, $"V", 1%Z); (1 # 1, $"A", (-1)%Z)]);
  (* Conductance Units *)
  ($"S", [(1 # 1, $"ohm", (-1)%Z)]);
  ($"siemens", [(1 # 1, $"S", 1%Z)]);
  (* Capacitance Units *)
  ($"F", [(1 # 1, $"C", 1%Z); (1 # 1, $"V", (-1)%Z)]);
  ($"pF", [(1 # 1000000000000, $"F", 1%Z)]);
  ($"nF", [(1 # 1000000000, $"F", 1%Z)]);
  ($"uF", [(1 # 1000000, $"F", 1%Z)]);
  ($"mF", [(1 # 1000, $"F", 1%Z)]);
  ($"farad", [(1 # 1, $"F", 1%Z)]);
  (* Magnetic Flux Units *)
  ($"Wb", [(1 # 1, $"V", 1%Z); (1 # 1, $"s", 1%Z)]);
  ($"weber", [(1 # 1, $"Wb", 1%Z)]);
  (* Magnetic Flux Density Units *)
  ($"T", [(1 # 1, $"Wb", 1%Z); (1 # 1, $"m", 2%Z)]);
  ($"gauss", [(1 # 10000, $"T", 1%Z)]);
  ($"tesla", [(1 # 1, $"T", 1%Z)]);
  (* Inductance Units *)
  ($"H", [(1 # 1, $"Wb", 1%Z); (1 # 1, $"A", (-1)%Z)]);
  ($"mH", [(1 # 1000, $"H", 1%Z)]);
  ($"uH", [(1 # 1000000, $"H", 1%Z)]);
  ($"henry", [(1 # 1, $"H", 1%Z)]);
  (* Molality Units *)
  ($"molal", [(1 # 1, $"mol", 1%Z); (1 # 1, $"kg", (-1)%Z)]);
  ($"mmolal", [(1 # 1000, $"molal", 1%Z)]);
  ($"umolal", [(1 # 1000000, $"molal", 1%Z)]);
  ($"mcmolal", [(1 # 1000000, $"molal", 1%Z)]);
  ($"nmolal", [(1 # 1000000000, $"molal", 1%Z)]);
  (* Molarity Units *)
  ($"molar", [(1 # 1, $"mol", 1%Z); (1 # 1, $"liter", (-1)%Z)]);
  ($"mmolar", [(1 # 1000, $"molar", 1%Z)]);
  ($"umolar", [(1 # 1000000, $"molar", 1%Z)]);
  ($"mcmolar", [(1 # 1000000, $"molar", 1%Z)]);
  ($"nmolar", [(1 # 1000000000, $"molar", 1%Z)]);
  (* Equivalent Units *)
  ($"eq", [(1 # 1, $"eq", 1%Z)]);
  ($"meq", [(1 # 1000, $"eq", 1%Z)]);
  ($"ueq", [(1 # 1000000, $"eq", 1%Z)]);
  ($"mceq", [(1 # 1000000, $"eq", 1%Z)]);
  ($"neq", [(1 # 1000000000, $"eq", 1%Z)])
].

(* Reaktoro/Common/Units.cpp:70-75 and 388-398: factor, translate, symbol. *)
Definition TemperatureUnit := (Q * Q * str)%type.
Definition temperatureUnitsMap : list (str * TemperatureUnit) := [
  ($"K", (1, 0, $"K")%Q);
  ($"degC", (1, (-27315) # 100, $"K")%Q);
  ($"degF", (18 # 10, 32, $"degC")%Q);
  ($"degR", (1, 45967 # 100, $"degF")%Q);
  ($"kelvin", (1, 0, $"K")%Q);
  ($"celsius", (1, 0, $"degC")%Q);
  ($"fahrenheit", (1, 0, $"degF")%Q);
  ($"rankine", (1, 0, $"degR")%Q)
].

Fixpoint find {A} (k : str) (m : list (str * A)) : option A :=
  match m with
  | [] => None
  | (k', a) :: m' => if str_eqb k k' then Some a else find k m'
  end.

Definition isTemp (s : str) : bool := match find s temperatureUnitsMap with Some _ => true | None => false end.

(* Reaktoro/Common/Units.cpp:400-405 and 407-412, toKelvin and fromKelvin.
   Fuel bounds the depth of the definitions; exhausting it (a cycle) is UB.
   Callers check the symbol first, so a missing symbol is UB here. *)
Fixpoint toKelvin (fuel : nat) (value : Q) (from : str) : outcome Q :=
  match fuel with
  | O => UB
  | S fuel' =>
    if str_eqb from $"K" then Ok value
    else match find from temperatureUnitsMap with
         | None => UB
         | Some (factor, translate, symbol) => toKelvin fuel' ((value - translate) / factor)%Q symbol
         end
  end.
Fixpoint fromKelvin (fuel : nat) (value : Q) (to : str) : outcome Q :=
  match fuel with
  | O => UB
  | S fuel' =>
    if str_eqb to $"K" then Ok value
    else match find to temperatureUnitsMap with
         | None => UB
         | Some (factor, translate, symbol) =>
           omap (fun v => factor * v + translate)%Q (fromKelvin fuel' value symbol)
         end
  end.

Definition depth : nat := length derivedUnitsMap.

(* Reaktoro/Common/Units.cpp:432-438, convertTemperature. *)
Definition convertTemperature (value : Q) (from to : str) : outcome Q :=
  if isTemp from then
    if isTemp to then bind (toKelvin depth value from) (fun k => fromKelvin depth k to)
    else Err
  else Err.

(* Reaktoro/Common/Units.cpp:440-450, factor(symbol).  [units] of a known unit
   is never empty in the table; front() of an empty list is UB. *)
Fixpoint factor (fuel : nat) (symbol : str) : outcome Q :=
  match fuel with
  | O => UB
  | S fuel' =>
    if isTemp symbol then Ok 1%Q
    else match find symbol derivedUnitsMap with
         | None => Err
         | Some [] => UB
         | Some (u0 :: us) =>
           if str_eqb (su_symbol u0) symbol then Ok (Qpower (su_factor u0) (su_power u0))
           else fold_left (fun res u =>
                  bind res (fun r => omap (fun f => r * (su_factor u * Qpower f (su_power u)))%Q
                                          (factor fuel' (su_symbol u))))
                (u0 :: us) (Ok 1%Q)
         end
  end.

(* Reaktoro/Common/Units.cpp:452-462, factor(derivedUnit). *)
Fixpoint factorDU (u : DerivedUnit) : outcome Q :=
  match u with
  | [] => Ok 1%Q
  | x :: u' => bind (factor depth (su_symbol x)) (fun f =>
               omap (fun r => su_factor x * Qpower f (su_power x) * r)%Q (factorDU u'))
  end.

(* std::map<string,int>: association list; absent keys count as zero. *)
Definition dims := list (str * Z).
Fixpoint dim_add (d : dims) (k : str) (n : Z) : dims :=
  match d with
  | [] => [(k, n)]
  | (k', m) :: d' => if str_eqb k k' then (k', m + n)%Z :: d' else (k', m) :: dim_add d' k n
  end.
Definition dim_get (d : dims) (k : str) : Z := match find k d with Some n => n | None => 0%Z end.
(* operator== on maps from which zeros were removed (lines 464-468): equal
   exactly when all keys have the same value, absent meaning zero. *)
Definition dim_eqb (a b : dims) : bool :=
  forallb (fun k => Z.eqb (dim_get a k) (dim_get b k)) (map fst a ++ map fst b).

(* Reaktoro/Common/Units.cpp:470-478, dimension(symbol, multpower, res). *)
Fixpoint dimension (fuel : nat) (symbol : str) (multpower : Z) (res : dims) : outcome dims :=
  match fuel with
  | O => UB
  | S fuel' =>
    if isTemp symbol then Ok (dim_add res symbol multpower)
    else match find symbol derivedUnitsMap with
         | None => Err
         | Some [] => UB
         | Some (u0 :: us) =>
           if str_eqb (su_symbol u0) symbol then Ok (dim_add res (su_symbol u0) (su_power u0 * multpower))
           else fold_left (fun r u => bind r (dimension fuel' (su_symbol u) (su_power u * multpower)))
                (u0 :: us) (Ok res)
         end
  end.

(* Reaktoro/Common/Units.cpp:480-485 and 495-501, dimension(derivedUnit). *)
Fixpoint dimensionDU (u : DerivedUnit) (res : dims) : outcome dims :=
  match u with
  | [] => Ok res
  | x :: u' => bind (dimension depth (su_symbol x) (su_power x) res) (dimensionDU u')
  end.

(* Reaktoro/Common/Units.cpp:503-511, Node; a null pointer is Null. *)
Inductive node := Null | Node (s : str) (left right : node).

(* Reaktoro/Common/Units.cpp:513-524, findMatchedParenthesisFromRight: scans the
   characters before [pos], given in reverse order; [iter] is the number of
   characters not yet scanned. *)
Fixpoint findMatched (level : Z) (rev_prefix : str) : option nat :=
  match rev_prefix with
  | [] => None
  | c :: r =>
    let level1 := if Ascii.eqb c ")"%char then (level + 1)%Z else level in
    let level2 := if Ascii.eqb c "("%char then (level1 - 1)%Z else level1 in
    if Ascii.eqb c "("%char && Z.eqb level2 (-1) then Some (length r)
    else findMatched level2 r
  end.

Definition isop (c : ascii) : bool := Ascii.eqb c "*"%char || Ascii.eqb c "/"%char.

(* symbol.find_last_of("*/"): index of the last operator. *)
Fixpoint find_last_op (s : str) : option nat :=
  match s with
  | [] => None
  | c :: s' => match find_last_op s' with
               | Some k => Some (S k)
               | None => if isop c then Some 0 else None
               end
  end.

(* Reaktoro/Common/Units.cpp:531-573, parseUnit(symbol, pos).  The function only
   looks at symbol[0..pos], so the argument here is that prefix.  With
   found = 0, line 569 continues at pos = found - 1, which wraps around and
   reads symbol[4294967295]: UB. *)
Fixpoint parseUnitNode (fuel : nat) (symbol : str) : outcome node :=
  match fuel with
  | O => UB
  | S fuel' =>
    match last_opt symbol with
    | None => Ok Null
    | Some c =>
      let pos := length symbol - 1 in
      if Ascii.eqb c ")"%char then
        match findMatched 0 (rev (firstn pos symbol)) with
        | None => Err
        | Some O => parseUnitNode fuel' (firstn (pos - 0 - 1) (skipn 1 symbol))
        | Some (S j) =>
          let i := S j in
          bind (parseUnitNode fuel' (firstn j symbol)) (fun left =>
          bind (parseUnitNode fuel' (firstn (pos - i - 1) (skipn (i + 1) symbol))) (fun right =>
          Ok (Node (firstn 1 (skipn j symbol)) left right)))
        end
      else
        match find_last_op symbol with
        | None => Ok (Node symbol Null Null)
        | Some O => UB
        | Some (S k) =>
          let found := S k in
          bind (parseUnitNode fuel' (firstn found symbol)) (fun left =>
          Ok (Node (firstn 1 (skipn found symbol)) left (Node (skipn (found + 1) symbol) Null Null)))
        end
    end
  end.

(* Reaktoro/Common/Units.cpp:575-591, parseUnit(root, derivedUnit, sign):
   dereferencing a null root is UB. *)
Fixpoint flatten (root : node) (sign : Z) (acc : DerivedUnit) : outcome DerivedUnit :=
  match root with
  | Null => UB
  | Node s l r =>
    if str_eqb s $"*" then bind (flatten l sign acc) (flatten r sign)
    else if str_eqb s $"/" then bind (flatten l sign acc) (flatten r (- sign))
    else Ok (acc ++ [(1%Q, s, sign)])
  end.

(* Reaktoro/Common/Units.cpp:593-599, parseUnit(symbol). *)
Definition parseUnit (symbol : str) : outcome DerivedUnit :=
  bind (parseUnitNode (S (length symbol)) symbol) (fun root => flatten root 1 []).

(* Reaktoro/Common/Units.cpp:601-608, checkConvertibleUnits. *)
Definition checkConvertibleUnits (from to : DerivedUnit) : outcome unit :=
  bind (dimensionDU from []) (fun df => bind (dimensionDU to []) (fun dt =>
  if dim_eqb df dt then Ok tt else Err)).

(* Reaktoro/Common/Units.cpp:612-620, slope. *)
Definition slope (from to : str) : outcome Q :=
  if isTemp from && isTemp to then
    bind (convertTemperature 1 from to) (fun a =>
    bind (convertTemperature 0 from to) (fun b => Ok (a - b)%Q))
  else
    bind (parseUnit from) (fun pf =>
    bind (parseUnit to) (fun pt =>
    bind (checkConvertibleUnits pf pt) (fun _ =>
    bind (factorDU pf) (fun ff =>
    bind (factorDU pt) (fun ft => Ok (ff / ft)%Q))))).

(* Reaktoro/Common/Units.cpp:622-627, intercept. *)
Definition intercept (from to : str) : outcome Q :=
  if isTemp from && isTemp to then convertTemperature 0 from to else Ok 0%Q.

(* Reaktoro/Common/Units.cpp:629-636, convertible. *)
Definition convertible (from to : str) : outcome bool :=
  if isTemp from && isTemp to then Ok true
  else bind (parseUnit from) (fun pf => bind (parseUnit to) (fun pt =>
       bind (dimensionDU pf []) (fun df => bind (dimensionDU pt []) (fun dt => Ok (dim_eqb df dt))))).

(* Reaktoro/Common/Units.hpp:46-50, convert. *)
Definition convert (value : Q) (from to : str) : outcome Q :=
  if str_eqb from to then Ok value
  else bind (slope from to) (fun a => bind (intercept from to) (fun b => Ok (value * a + b)%Q)).
