(* Model of the documents (Common/YAML.hpp, a wrapper of yaml-cpp, which is not part
   of the repository) and of the serialization of thermodynamic models
   (Serialization/Models.YAML.cpp). *)
From Verif Require Import Base M_Strings.

(* A node of a document that is defined; the text of a scalar is kept. *)
Inductive yaml : Type := YNull | YScalar (t : str) | YSeq (l : list yaml) | YMap (l : list (str * yaml)).
(* A floating-point number. *)
Inductive double : Type := Fin (q : Q) | Inf (negative : bool) | NaN.
Definition is_zero (d : double) : bool := match d with Fin q => Qeq_bool q 0 | _ => false end.

(* yaml-cpp: the value with a key in a map. *)
Fixpoint lookup_key (l : list (str * yaml)) (key : str) : option yaml :=
  match l with [] => None | (k, v) :: l' => if str_eqb k key then Some v else lookup_key l' key end.
(* Common/YAML.hpp:75-76: a child that need not be defined (None); yaml-cpp throws
   for a scalar. *)
Definition child (n : yaml) (key : str) : outcome (option yaml) :=
  match n with YMap l => Ok (lookup_key l key) | YScalar _ => Err | _ => Ok None end.
(* Common/YAML.cpp:73-78. *)
Definition at_key (n : yaml) (key : str) : outcome yaml :=
  bind (child n key) (fun c => match c with Some v => Ok v | None => Err end).
Definition as_string (n : yaml) : outcome str := match n with YScalar t => Ok t | _ => Err end.

Section Numbers.
(* How yaml-cpp writes and reads numbers. *)
Variable print : double -> str.
Variable read : str -> option double.
Variable printN : nat -> str.
Variable readN : str -> option nat.

(* Serialization/Common.YAML.cpp:22-30 and Core.YAML.cpp:169-177, of real and Param:
   the identifier, bounds and flag of a Param are not written. *)
Definition num (d : double) : yaml := YScalar (print d).
Definition as_num (n : yaml) : outcome double :=
  bind (as_string n) (fun t => match read t with Some d => Ok d | None => Err end).
Definition as_nat (n : yaml) : outcome nat :=
  bind (as_string n) (fun t => match readN t with Some d => Ok d | None => Err end).
(* yaml-cpp: vectors. *)
Definition nums (l : list double) : yaml := YSeq (map num l).
Definition as_nums (n : yaml) : outcome (list double) := match n with YSeq l => mapM as_num l | _ => Err end.
(* Common/YAML.hpp:93-103: node.at(key).to(value). *)
Definition get (n : yaml) (key : str) : outcome double := bind (at_key n key) as_num.
Definition gets (n : yaml) (key : str) : outcome (list double) := bind (at_key n key) as_nums.
(* Common/YAML.hpp:105-111: node[key].to(value, fallback). *)
Definition get_or (n : yaml) (key : str) (fallback : double) : outcome double :=
  bind (child n key) (fun c => match c with Some v => as_num v | None => Ok fallback end).

(* ---- Reaction models ---- *)
(* Models/ReactionThermoModelConstLgK.hpp:26-33. *)
Record ConstLgK := mkConstLgK { cl_lgKr : double; cl_Pr : double }.
Definition defaultPr : double := Fin 100000.
Definition defaultTr : double := Fin (29815 # 100).
(* Serialization/Models.YAML.cpp:41-45 and 47-52. *)
Definition encodeConstLgK (p : ConstLgK) : yaml := YMap [($"lgKr", num (cl_lgKr p)); ($"Pr", num (cl_Pr p))].
Definition decodeConstLgK (n : yaml) : outcome ConstLgK :=
  bind (get n $"lgKr") (fun lgKr => bind (get_or n $"Pr" defaultPr) (fun Pr => Ok (mkConstLgK lgKr Pr))).
(* Models/ReactionThermoModelGemsLgK.hpp:26-51. *)
Record GemsLgK := mkGemsLgK { ge_A0 : double; ge_A1 : double; ge_A2 : double; ge_A3 : double; ge_A4 : double; ge_A5 : double; ge_A6 : double; ge_Pr : double }.
(* Serialization/Models.YAML.cpp:56-66 and 68-79. *)
Definition encodeGemsLgK (p : GemsLgK) : yaml := YMap [($"A0", num (ge_A0 p)); ($"A1", num (ge_A1 p)); ($"A2", num (ge_A2 p)); ($"A3", num (ge_A3 p));
  ($"A4", num (ge_A4 p)); ($"A5", num (ge_A5 p)); ($"A6", num (ge_A6 p)); ($"Pr", num (ge_Pr p))].
Definition decodeGemsLgK (n : yaml) : outcome GemsLgK :=
  bind (get n $"A0") (fun A0 => bind (get n $"A1") (fun A1 => bind (get n $"A2") (fun A2 => bind (get n $"A3") (fun A3 =>
  bind (get n $"A4") (fun A4 => bind (get n $"A5") (fun A5 => bind (get n $"A6") (fun A6 => bind (get_or n $"Pr" defaultPr) (fun Pr =>
  Ok (mkGemsLgK A0 A1 A2 A3 A4 A5 A6 Pr))))))))).
(* Models/ReactionThermoModelPhreeqcLgK.hpp:26-48. *)
Record PhreeqcLgK := mkPhreeqcLgK { pq_A1 : double; pq_A2 : double; pq_A3 : double; pq_A4 : double; pq_A5 : double; pq_A6 : double; pq_Pr : double }.
(* Serialization/Models.YAML.cpp:83-92 and 94-104. *)
Definition encodePhreeqcLgK (p : PhreeqcLgK) : yaml := YMap [($"A1", num (pq_A1 p)); ($"A2", num (pq_A2 p)); ($"A3", num (pq_A3 p));
  ($"A4", num (pq_A4 p)); ($"A5", num (pq_A5 p)); ($"A6", num (pq_A6 p)); ($"Pr", num (pq_Pr p))].
Definition decodePhreeqcLgK (n : yaml) : outcome PhreeqcLgK :=
  bind (get n $"A1") (fun A1 => bind (get n $"A2") (fun A2 => bind (get n $"A3") (fun A3 =>
  bind (get n $"A4") (fun A4 => bind (get n $"A5") (fun A5 => bind (get n $"A6") (fun A6 => bind (get_or n $"Pr" defaultPr) (fun Pr =>
  Ok (mkPhreeqcLgK A1 A2 A3 A4 A5 A6 Pr)))))))).
(* Models/ReactionThermoModelVantHoff.hpp:26-39. *)
Record VantHoff := mkVantHoff { vh_lgKr : double; vh_dHr : double; vh_Tr : double; vh_Pr : double }.
(* Serialization/Models.YAML.cpp:108-114 and 116-123. *)
Definition encodeVantHoff (p : VantHoff) : yaml := YMap [($"lgKr", num (vh_lgKr p)); ($"dHr", num (vh_dHr p)); ($"Tr", num (vh_Tr p)); ($"Pr", num (vh_Pr p))].
Definition decodeVantHoff (n : yaml) : outcome VantHoff :=
  bind (get n $"lgKr") (fun lgKr => bind (get n $"dHr") (fun dHr => bind (get_or n $"Tr" defaultTr) (fun Tr => bind (get_or n $"Pr" defaultPr) (fun Pr =>
  Ok (mkVantHoff lgKr dHr Tr Pr))))).

(* ---- Standard models ---- *)
(* Models/StandardThermoModelConstant.hpp:26-42. *)
Record Constant := mkConstant { co_G0 : double; co_H0 : double; co_V0 : double; co_Cp0 : double; co_Cv0 : double }.
(* Serialization/Models.YAML.cpp:129-136 and 138-145. *)
Definition encodeConstant (p : Constant) : yaml := YMap [($"G0", num (co_G0 p)); ($"H0", num (co_H0 p)); ($"V0", num (co_V0 p)); ($"Cp0", num (co_Cp0 p)); ($"Cv0", num (co_Cv0 p))].
Definition decodeConstant (n : yaml) : outcome Constant :=
  bind (get n $"G0") (fun G0 => bind (get_or n $"H0" (Fin 0)) (fun H0 => bind (get_or n $"V0" (Fin 0)) (fun V0 =>
  bind (get_or n $"Cp0" (Fin 0)) (fun Cp0 => bind (get_or n $"Cv0" (Fin 0)) (fun Cv0 => Ok (mkConstant G0 H0 V0 Cp0 Cv0)))))).
(* Models/StandardThermoModelHKF.hpp:26-63. *)
Record HKF := mkHKF { hk_Gf : double; hk_Hf : double; hk_Sr : double; hk_a1 : double; hk_a2 : double; hk_a3 : double; hk_a4 : double;
  hk_c1 : double; hk_c2 : double; hk_wref : double; hk_charge : double; hk_Tmax : double }.
(* Serialization/Models.YAML.cpp:149-163 and 165-178: the maximum temperature is not
   read and has its default (autodiff's real is zero by default). *)
Definition encodeHKF (p : HKF) : yaml := YMap [($"Gf", num (hk_Gf p)); ($"Hf", num (hk_Hf p)); ($"Sr", num (hk_Sr p));
  ($"a1", num (hk_a1 p)); ($"a2", num (hk_a2 p)); ($"a3", num (hk_a3 p)); ($"a4", num (hk_a4 p)); ($"c1", num (hk_c1 p)); ($"c2", num (hk_c2 p));
  ($"wref", num (hk_wref p)); ($"charge", num (hk_charge p)); ($"Tmax", num (hk_Tmax p))].
Definition decodeHKF (n : yaml) : outcome HKF :=
  bind (get n $"Gf") (fun Gf => bind (get n $"Hf") (fun Hf => bind (get n $"Sr") (fun Sr =>
  bind (get n $"a1") (fun a1 => bind (get n $"a2") (fun a2 => bind (get n $"a3") (fun a3 => bind (get n $"a4") (fun a4 =>
  bind (get n $"c1") (fun c1 => bind (get n $"c2") (fun c2 => bind (get n $"wref") (fun wref => bind (get n $"charge") (fun charge =>
  Ok (mkHKF Gf Hf Sr a1 a2 a3 a4 c1 c2 wref charge (Fin 0))))))))))))).
(* Models/StandardThermoModelHollandPowell.hpp:26-68. *)
Record HollandPowell := mkHP { hp_Gf : double; hp_Hf : double; hp_Sr : double; hp_Vr : double; hp_a : double; hp_b : double; hp_c : double; hp_d : double;
  hp_alpha0 : double; hp_kappa0 : double; hp_kappa0p : double; hp_kappa0pp : double; hp_numatoms : double; hp_Tmax : double }.
(* Serialization/Models.YAML.cpp:182-201 and 203-222. *)
Definition encodeHP (p : HollandPowell) : yaml := YMap ([($"Gf", num (hp_Gf p)); ($"Hf", num (hp_Hf p)); ($"Sr", num (hp_Sr p)); ($"Vr", num (hp_Vr p));
  ($"a", num (hp_a p)); ($"b", num (hp_b p)); ($"c", num (hp_c p)); ($"d", num (hp_d p))] ++
  (if is_zero (hp_kappa0 p) then [] else [($"alpha0", num (hp_alpha0 p)); ($"kappa0", num (hp_kappa0 p)); ($"kappa0p", num (hp_kappa0p p));
     ($"kappa0pp", num (hp_kappa0pp p)); ($"numatoms", num (hp_numatoms p))]) ++ [($"Tmax", num (hp_Tmax p))]).
Definition decodeHP (n : yaml) : outcome HollandPowell :=
  bind (get n $"Gf") (fun Gf => bind (get n $"Hf") (fun Hf => bind (get n $"Sr") (fun Sr => bind (get n $"Vr") (fun Vr =>
  bind (get n $"a") (fun a => bind (get n $"b") (fun b => bind (get n $"c") (fun c => bind (get n $"d") (fun d =>
  bind (child n $"kappa0") (fun k =>
  bind (match k with
        | None => Ok (Fin 0, Fin 0, Fin 0, Fin 0, Fin 0)
        | Some _ => bind (get n $"alpha0") (fun alpha0 => bind (get n $"kappa0") (fun kappa0 => bind (get n $"kappa0p") (fun kappa0p =>
                    bind (get n $"kappa0pp") (fun kappa0pp => bind (get n $"numatoms") (fun numatoms => Ok (alpha0, kappa0, kappa0p, kappa0pp, numatoms))))))
        end) (fun r => let '(alpha0, kappa0, kappa0p, kappa0pp, numatoms) := r in
  bind (get n $"Tmax") (fun Tmax => Ok (mkHP Gf Hf Sr Vr a b c d alpha0 kappa0 kappa0p kappa0pp numatoms Tmax)))))))))))).
(* Models/StandardThermoModelMaierKelley.hpp:26-51. *)
Record MaierKelley := mkMK { mk_Gf : double; mk_Hf : double; mk_Sr : double; mk_Vr : double; mk_a : double; mk_b : double; mk_c : double; mk_Tmax : double }.
(* Serialization/Models.YAML.cpp:226-236 and 238-248. *)
Definition encodeMK (p : MaierKelley) : yaml := YMap [($"Gf", num (mk_Gf p)); ($"Hf", num (mk_Hf p)); ($"Sr", num (mk_Sr p)); ($"Vr", num (mk_Vr p));
  ($"a", num (mk_a p)); ($"b", num (mk_b p)); ($"c", num (mk_c p)); ($"Tmax", num (mk_Tmax p))].
Definition decodeMK (n : yaml) : outcome MaierKelley :=
  bind (get n $"Gf") (fun Gf => bind (get n $"Hf") (fun Hf => bind (get n $"Sr") (fun Sr => bind (get n $"Vr") (fun Vr =>
  bind (get n $"a") (fun a => bind (get n $"b") (fun b => bind (get n $"c") (fun c => bind (get n $"Tmax") (fun Tmax => Ok (mkMK Gf Hf Sr Vr a b c Tmax))))))))).
(* Models/StandardThermoModelMineralHKF.hpp:26-66. *)
Record MineralHKF := mkMin { mi_Gf : double; mi_Hf : double; mi_Sr : double; mi_Vr : double; mi_ntr : nat; mi_a : list double; mi_b : list double; mi_c : list double;
  mi_Ttr : list double; mi_Htr : list double; mi_Vtr : list double; mi_dPdTtr : list double; mi_Tmax : double }.
(* Serialization/Models.YAML.cpp:252-267 and 269-284. *)
Definition encodeMin (p : MineralHKF) : yaml := YMap [($"Gf", num (mi_Gf p)); ($"Hf", num (mi_Hf p)); ($"Sr", num (mi_Sr p)); ($"Vr", num (mi_Vr p));
  ($"ntr", YScalar (printN (mi_ntr p))); ($"a", nums (mi_a p)); ($"b", nums (mi_b p)); ($"c", nums (mi_c p)); ($"Ttr", nums (mi_Ttr p)); ($"Htr", nums (mi_Htr p));
  ($"Vtr", nums (mi_Vtr p)); ($"dPdTtr", nums (mi_dPdTtr p)); ($"Tmax", num (mi_Tmax p))].
Definition decodeMin (n : yaml) : outcome MineralHKF :=
  bind (get n $"Gf") (fun Gf => bind (get n $"Hf") (fun Hf => bind (get n $"Sr") (fun Sr => bind (get n $"Vr") (fun Vr =>
  bind (bind (at_key n $"ntr") as_nat) (fun ntr => bind (gets n $"a") (fun a => bind (gets n $"b") (fun b => bind (gets n $"c") (fun c =>
  bind (gets n $"Ttr") (fun Ttr => bind (gets n $"Htr") (fun Htr => bind (gets n $"Vtr") (fun Vtr => bind (gets n $"dPdTtr") (fun dPdTtr =>
  bind (get n $"Tmax") (fun Tmax => Ok (mkMin Gf Hf Sr Vr ntr a b c Ttr Htr Vtr dPdTtr Tmax)))))))))))))).
(* Models/StandardThermoModelWaterHKF.hpp:27-40. *)
Record WaterHKF := mkWater { wa_Ttr : double; wa_Str : double; wa_Gtr : double; wa_Htr : double }.
(* Serialization/Models.YAML.cpp:288-294 and 296-302. *)
Definition encodeWater (p : WaterHKF) : yaml := YMap [($"Ttr", num (wa_Ttr p)); ($"Str", num (wa_Str p)); ($"Gtr", num (wa_Gtr p)); ($"Htr", num (wa_Htr p))].
Definition decodeWater (n : yaml) : outcome WaterHKF :=
  bind (get n $"Ttr") (fun Ttr => bind (get n $"Str") (fun Str => bind (get n $"Gtr") (fun Gtr => bind (get n $"Htr") (fun Htr => Ok (mkWater Ttr Str Gtr Htr))))).
(* Models/StandardVolumeModelConstant.hpp:26-30; Serialization/Models.YAML.cpp:308-311 and 313-316. *)
Record VolumeConstant := mkVolume { vo_V0 : double }.
Definition encodeVolume (p : VolumeConstant) : yaml := YMap [($"V0", num (vo_V0 p))].
Definition decodeVolume (n : yaml) : outcome VolumeConstant := bind (get n $"V0") (fun V0 => Ok (mkVolume V0)).

(* ---- Models ---- *)
(* A model made by one of the library's functions from its parameters; a model given
   by a function of the user, or by chaining models (Core/Model.hpp:219-246), which
   has no serializer. *)
Inductive StdModel : Type := SConstant (p : Constant) | SHKF (p : HKF) | SHollandPowell (p : HollandPowell) | SMaierKelley (p : MaierKelley)
  | SMineralHKF (p : MineralHKF) | SWaterHKF (p : WaterHKF) | SOther.
Inductive RxnModel : Type := RConstLgK (p : ConstLgK) | RGemsLgK (p : GemsLgK) | RPhreeqcLgK (p : PhreeqcLgK) | RVantHoff (p : VantHoff) | ROther.
(* Core/Model.hpp:167-170, with StandardThermoModelConstant.cpp:33-41,
   StandardThermoModelHKF.cpp:84-92, StandardThermoModelHollandPowell.cpp:41-49,
   StandardThermoModelMaierKelley.cpp:38-46, StandardThermoModelMineralHKF.cpp:46-54,
   StandardThermoModelWaterHKF.cpp:35-43. *)
Definition serializeStd (m : StdModel) : yaml :=
  match m with
  | SConstant p => YMap [($"Constant", encodeConstant p)]
  | SHKF p => YMap [($"HKF", encodeHKF p)]
  | SHollandPowell p => YMap [($"HollandPowell", encodeHP p)]
  | SMaierKelley p => YMap [($"MaierKelley", encodeMK p)]
  | SMineralHKF p => YMap [($"MineralHKF", encodeMin p)]
  | SWaterHKF p => YMap [($"WaterHKF", encodeWater p)]
  | SOther => YNull
  end.
(* Models/StandardThermoModelYAML.cpp:31-54. *)
Definition StandardThermoModelYAML (n : yaml) : outcome StdModel :=
  match n with
  | YMap [(model, params)] =>
    if str_eqb model $"Constant" then omap SConstant (decodeConstant params) else
    if str_eqb model $"HKF" then omap SHKF (decodeHKF params) else
    if str_eqb model $"HollandPowell" then omap SHollandPowell (decodeHP params) else
    if str_eqb model $"MaierKelley" then omap SMaierKelley (decodeMK params) else
    if str_eqb model $"MineralHKF" then omap SMineralHKF (decodeMin params) else
    if str_eqb model $"WaterHKF" then omap SWaterHKF (decodeWater params) else Err
  | _ => Err
  end.
(* Core/Model.hpp:167-170, with ReactionThermoModelConstLgK.cpp:34-42,
   ReactionThermoModelGemsLgK.cpp:34-42, ReactionThermoModelPhreeqcLgK.cpp:34-42 and
   ReactionThermoModelVantHoff.cpp:34-42. *)
Definition serializeRxn (m : RxnModel) : yaml :=
  match m with
  | RConstLgK p => YMap [($"ConstLgK", encodeConstLgK p)]
  | RGemsLgK p => YMap [($"GemsLgK", encodeGemsLgK p)]
  | RPhreeqcLgK p => YMap [($"PhreeqcLgK", encodePhreeqcLgK p)]
  | RVantHoff p => YMap [($"VantHoff", encodeVantHoff p)]
  | ROther => YNull
  end.
(* Models/ReactionThermoModelYAML.cpp:29-48. *)
Definition ReactionThermoModelYAML (n : yaml) : outcome RxnModel :=
  match n with
  | YMap [(model, params)] =>
    if str_eqb model $"ConstLgK" then omap RConstLgK (decodeConstLgK params) else
    if str_eqb model $"GemsLgK" then omap RGemsLgK (decodeGemsLgK params) else
    if str_eqb model $"PhreeqcLgK" then omap RPhreeqcLgK (decodePhreeqcLgK params) else
    if str_eqb model $"VantHoff" then omap RVantHoff (decodeVantHoff params) else Err
  | _ => Err
  end.
End Numbers.
