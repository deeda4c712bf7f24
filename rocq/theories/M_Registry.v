(* Registries kept for the whole process: dissociation reactions, critical
   properties and elements (Reaktoro/Singletons). *)
From Verif Require Import Base M_Strings M_Formula M_Chem M_Algorithms M_System.

(* ---- Dissociation reactions ---- *)
(* DissociationReactions.hpp:31-39. *)
Record Dissociation := mkDis { dr_complex : ChemicalFormula; dr_ions : list (Q * ChemicalFormula) }.
(* DissociationReactions.cpp:28-197. *)
Definition dissociation_table : list (str * list (Q * str)) := [
  ($"AgCl", [(1%Q, $"Ag+"); (1%Q, $"Cl-")]);
  ($"AgF", [(1%Q, $"Ag+"); (1%Q, $"F-")]);
  ($"AgNO3", [(1%Q, $"Ag+"); (1%Q, $"NO3-")]);
  ($"AlF3", [(1%Q, $"Al+++"); (3%Q, $"F-")]);
  ($"As(OH)3", [(1%Q, $"As+++"); (3%Q, $"OH-")]);
  ($"CaCl2", [(1%Q, $"Ca++"); (2%Q, $"Cl-")]);
  ($"CaCO3", [(1%Q, $"Ca++"); (1%Q, $"CO3--")]);
  ($"CaHPO4", [(1%Q, $"Ca++"); (1%Q, $"HPO4--")]);
  ($"CaSO4", [(1%Q, $"Ca++"); (1%Q, $"SO4--")]);
  ($"Cd(CN)2", [(1%Q, $"Cd++"); (2%Q, $"CN-")]);
  ($"Cd(N3)2", [(1%Q, $"Cd++"); (2%Q, $"N3-")]);
  ($"Cd(SCN)2", [(1%Q, $"Cd++"); (2%Q, $"SCN-")]);
  ($"CdBr2", [(1%Q, $"Cd++"); (2%Q, $"Br-")]);
  ($"CdCl2", [(1%Q, $"Cd++"); (2%Q, $"Cl-")]);
  ($"CdI2", [(1%Q, $"Cd++"); (2%Q, $"I-")]);
  ($"CdSeO4", [(1%Q, $"Cd++"); (1%Q, $"SeO4--")]);
  ($"CdSO4", [(1%Q, $"Cd++"); (1%Q, $"SO4--")]);
  ($"CeCl3", [(1%Q, $"Ce+++"); (3%Q, $"Cl-")]);
  ($"CeF3", [(1%Q, $"Ce+++"); (3%Q, $"F-")]);
  ($"Co(HS)2", [(1%Q, $"Co++"); (2%Q, $"HS-")]);
  ($"CoBr2", [(1%Q, $"Co++"); (2%Q, $"Br-")]);
  ($"CoI2", [(1%Q, $"Co++"); (2%Q, $"I-")]);
  ($"CoSeO4", [(1%Q, $"Co++"); (1%Q, $"SeO4--")]);
  ($"CoSO4", [(1%Q, $"Co++"); (1%Q, $"SO4--")]);
  ($"CsBr", [(1%Q, $"Cs+"); (1%Q, $"Br-")]);
  ($"CsCl", [(1%Q, $"Cs+"); (1%Q, $"Cl-")]);
  ($"CsI", [(1%Q, $"Cs+"); (1%Q, $"I-")]);
  ($"Cu(NO2)2", [(1%Q, $"Cu++"); (2%Q, $"NO2-")]);
  ($"CuCl2", [(1%Q, $"Cu++"); (2%Q, $"Cl-")]);
  ($"CuHPO4", [(1%Q, $"Cu++"); (1%Q, $"HPO4--")]);
  ($"CuSO4", [(1%Q, $"Cu++"); (1%Q, $"SO4--")]);
  ($"DyCl3", [(1%Q, $"Dy+++"); (3%Q, $"Cl-")]);
  ($"DyF3", [(1%Q, $"Dy+++"); (3%Q, $"F-")]);
  ($"ErCl3", [(1%Q, $"Er+++"); (3%Q, $"Cl-")]);
  ($"ErF3", [(1%Q, $"Er+++"); (3%Q, $"F-")]);
  ($"EuCl2", [(1%Q, $"Eu++"); (2%Q, $"Cl-")]);
  ($"EuCl3", [(1%Q, $"Eu+++"); (3%Q, $"Cl-")]);
  ($"EuF2", [(1%Q, $"Eu++"); (2%Q, $"F-")]);
  ($"EuF3", [(1%Q, $"Eu+++"); (3%Q, $"F-")]);
  ($"FeCl2", [(1%Q, $"Fe++"); (2%Q, $"Cl-")]);
  ($"FeHPO4", [(1%Q, $"Fe++"); (1%Q, $"HPO4--")]);
  ($"FeSO4", [(1%Q, $"Fe++"); (1%Q, $"SO4--")]);
  ($"GdCl3", [(1%Q, $"Gd+++"); (3%Q, $"Cl-")]);
  ($"GdF3", [(1%Q, $"Gd+++"); (3%Q, $"F-")]);
  ($"H2CrO4", [(2%Q, $"H+"); (1%Q, $"CrO4--")]);
  ($"H2F2", [(2%Q, $"H+"); (2%Q, $"F-")]);
  ($"H2S", [(1%Q, $"H+"); (1%Q, $"HS-")]);
  ($"H2Se", [(2%Q, $"H+"); (1%Q, $"Se--")]);
  ($"H2SeO3", [(2%Q, $"H+"); (1%Q, $"SeO3--")]);
  ($"H2SO3", [(2%Q, $"H+"); (1%Q, $"SO3--")]);
  ($"H2SO4", [(2%Q, $"H+"); (1%Q, $"SO4--")]);
  ($"H2TcO4", [(2%Q, $"H+"); (1%Q, $"TcO4--")]);
  ($"H3AsO4", [(1%Q, $"H+"); (1%Q, $"H2AsO4-")]);
  ($"H3PO4", [(2%Q, $"H+"); (1%Q, $"HPO4--")]);
  ($"HBrO", [(1%Q, $"H+"); (1%Q, $"BrO-")]);
  ($"HCl", [(1%Q, $"H+"); (1%Q, $"Cl-")]);
  ($"HClO", [(1%Q, $"H+"); (1%Q, $"ClO-")]);
  ($"HClO2", [(1%Q, $"H+"); (1%Q, $"ClO2-")]);
  ($"HCN", [(1%Q, $"H+"); (1%Q, $"CN-")]);
  ($"HF", [(1%Q, $"H+"); (1%Q, $"F-")]);
  ($"HIO3", [(1%Q, $"H+"); (1%Q, $"IO3-")]);
  ($"HN3", [(1%Q, $"H+"); (1%Q, $"N3-")]);
  ($"HNO2", [(1%Q, $"H+"); (1%Q, $"NO2-")]);
  ($"HNO3", [(1%Q, $"H+"); (1%Q, $"NO3-")]);
  ($"HoCl3", [(1%Q, $"Ho+++"); (3%Q, $"Cl-")]);
  ($"HoF3", [(1%Q, $"Ho+++"); (3%Q, $"F-")]);
  ($"KBr", [(1%Q, $"K+"); (1%Q, $"Br-")]);
  ($"KCl", [(1%Q, $"K+"); (1%Q, $"Cl-")]);
  ($"KHSO4", [(1%Q, $"K+"); (1%Q, $"H+"); (1%Q, $"SO4--")]);
  ($"KI", [(1%Q, $"K+"); (1%Q, $"I-")]);
  ($"LaCl3", [(1%Q, $"La+++"); (3%Q, $"Cl-")]);
  ($"LaF3", [(1%Q, $"La+++"); (3%Q, $"F-")]);
  ($"LiCl", [(1%Q, $"Li+"); (1%Q, $"Cl-")]);
  ($"LuCl3", [(1%Q, $"Lu+++"); (3%Q, $"Cl-")]);
  ($"LuF3", [(1%Q, $"Lu+++"); (3%Q, $"F-")]);
  ($"MgCl2", [(1%Q, $"Mg++"); (2%Q, $"Cl-")]);
  ($"MgCO3", [(1%Q, $"Mg++"); (1%Q, $"CO3--")]);
  ($"MgHPO4", [(1%Q, $"Mg++"); (1%Q, $"HPO4--")]);
  ($"MgSO4", [(1%Q, $"Mg++"); (1%Q, $"SO4--")]);
  ($"Mn(NO3)2", [(1%Q, $"Mn++"); (2%Q, $"NO3-")]);
  ($"MnHPO4", [(1%Q, $"Mn++"); (1%Q, $"HPO4--")]);
  ($"MnSeO4", [(1%Q, $"Mn++"); (1%Q, $"SeO4--")]);
  ($"MnSO4", [(1%Q, $"Mn++"); (1%Q, $"SO4--")]);
  ($"NaBr", [(1%Q, $"Na+"); (1%Q, $"Br-")]);
  ($"NaCl", [(1%Q, $"Na+"); (1%Q, $"Cl-")]);
  ($"NaF", [(1%Q, $"Na+"); (1%Q, $"F-")]);
  ($"NaHCO3", [(1%Q, $"Na+"); (1%Q, $"HCO3-")]);
  ($"NaI", [(1%Q, $"Na+"); (1%Q, $"I-")]);
  ($"NaOH", [(1%Q, $"Na+"); (1%Q, $"OH-")]);
  ($"NdCl3", [(1%Q, $"Nd+++"); (3%Q, $"Cl-")]);
  ($"NdF3", [(1%Q, $"Nd+++"); (3%Q, $"F-")]);
  ($"Ni(NO3)2", [(1%Q, $"Ni++"); (2%Q, $"NO3-")]);
  ($"NiSeO4", [(1%Q, $"Ni++"); (1%Q, $"SeO4--")]);
  ($"NiSO4", [(1%Q, $"Ni++"); (1%Q, $"SO4--")]);
  ($"Np(H2PO4)3", [(1%Q, $"Np+++"); (3%Q, $"H+"); (3%Q, $"HPO4--")]);
  ($"Np(HPO4)2", [(1%Q, $"Np++++"); (2%Q, $"HPO4--")]);
  ($"Np(SO4)2", [(1%Q, $"Np++++"); (2%Q, $"SO4--")]);
  ($"NpO2Cl", [(1%Q, $"NpO2+"); (1%Q, $"Cl-")]);
  ($"NpO2F", [(1%Q, $"NpO2+"); (1%Q, $"F-")]);
  ($"NpO2F2", [(1%Q, $"NpO2++"); (2%Q, $"F-")]);
  ($"NpO2H2PO4", [(1%Q, $"NpO2+"); (1%Q, $"H+"); (1%Q, $"HPO4--")]);
  ($"NpO2HPO4", [(1%Q, $"NpO2++"); (1%Q, $"HPO4--")]);
  ($"NpO2SO4", [(1%Q, $"NpO2++"); (1%Q, $"SO4--")]);
  ($"Pb(BrO3)2", [(1%Q, $"Pb++"); (2%Q, $"BrO3-")]);
  ($"Pb(ClO3)2", [(1%Q, $"Pb++"); (2%Q, $"ClO3-")]);
  ($"Pb(SCN)2", [(1%Q, $"Pb++"); (2%Q, $"SCN-")]);
  ($"PbBr2", [(1%Q, $"Pb++"); (2%Q, $"Br-")]);
  ($"PbCl2", [(1%Q, $"Pb++"); (2%Q, $"Cl-")]);
  ($"PbF2", [(1%Q, $"Pb++"); (2%Q, $"F-")]);
  ($"PbHPO4", [(1%Q, $"Pb++"); (1%Q, $"HPO4--")]);
  ($"PbI2", [(1%Q, $"Pb++"); (2%Q, $"I-")]);
  ($"PdCl2", [(1%Q, $"Pd++"); (2%Q, $"Cl-")]);
  ($"PrCl3", [(1%Q, $"Pr+++"); (3%Q, $"Cl-")]);
  ($"PrF3", [(1%Q, $"Pr+++"); (3%Q, $"F-")]);
  ($"Pu(HPO4)2", [(1%Q, $"Pu++++"); (2%Q, $"HPO4--")]);
  ($"Pu(SO4)2", [(1%Q, $"Pu++++"); (2%Q, $"SO4--")]);
  ($"PuF4", [(1%Q, $"Pu++++"); (4%Q, $"F-")]);
  ($"PuO2F2", [(1%Q, $"PuO2++"); (2%Q, $"F-")]);
  ($"PuO2SO4", [(1%Q, $"PuO2++"); (1%Q, $"SO4--")]);
  ($"RbBr", [(1%Q, $"Rb+"); (1%Q, $"Br-")]);
  ($"RbCl", [(1%Q, $"Rb+"); (1%Q, $"Cl-")]);
  ($"RbF", [(1%Q, $"Rb+"); (1%Q, $"F-")]);
  ($"RbI", [(1%Q, $"Rb+"); (1%Q, $"I-")]);
  ($"RuCl3", [(1%Q, $"Ru+++"); (3%Q, $"Cl-")]);
  ($"Ru(OH)2Cl2", [(1%Q, $"Ru(OH)2++"); (2%Q, $"Cl-")]);
  ($"Ru(OH)2SO4", [(1%Q, $"Ru(OH)2++"); (1%Q, $"SO4--")]);
  ($"RuSO4", [(1%Q, $"Ru++"); (1%Q, $"SO4--")]);
  ($"SmCl3", [(1%Q, $"Sm+++"); (3%Q, $"Cl-")]);
  ($"SmF3", [(1%Q, $"Sm+++"); (3%Q, $"F-")]);
  ($"Sn(SO4)2", [(1%Q, $"Sn++++"); (2%Q, $"SO4--")]);
  ($"SnCl2", [(1%Q, $"Sn++"); (2%Q, $"Cl-")]);
  ($"SnF2", [(1%Q, $"Sn++"); (2%Q, $"F-")]);
  ($"SrHPO4", [(1%Q, $"Sr++"); (1%Q, $"HPO4--")]);
  ($"SrSO4", [(1%Q, $"Sr++"); (1%Q, $"SO4--")]);
  ($"TbCl3", [(1%Q, $"Tb+++"); (3%Q, $"Cl-")]);
  ($"TbF3", [(1%Q, $"Tb+++"); (3%Q, $"F-")]);
  ($"Th(HPO4)2", [(1%Q, $"Th++++"); (2%Q, $"HPO4--")]);
  ($"Th(SO4)2", [(1%Q, $"Th++++"); (2%Q, $"SO4--")]);
  ($"ThCl4", [(1%Q, $"Th++++"); (4%Q, $"Cl-")]);
  ($"ThF4", [(1%Q, $"Th++++"); (4%Q, $"F-")]);
  ($"TmCl3", [(1%Q, $"Tm+++"); (3%Q, $"Cl-")]);
  ($"TmF3", [(1%Q, $"Tm+++"); (3%Q, $"F-")]);
  ($"U(SO4)2", [(1%Q, $"U++++"); (2%Q, $"SO4--")]);
  ($"UF4", [(1%Q, $"U++++"); (4%Q, $"F-")]);
  ($"UO2(H2PO4)2", [(1%Q, $"UO2++"); (2%Q, $"H+"); (2%Q, $"HPO4--")]);
  ($"UO2(IO3)2", [(1%Q, $"UO2++"); (2%Q, $"IO3-")]);
  ($"UO2(N3)2", [(1%Q, $"UO2++"); (2%Q, $"N3-")]);
  ($"UO2(SCN)2", [(1%Q, $"UO2++"); (2%Q, $"SCN-")]);
  ($"UO2Cl2", [(1%Q, $"UO2++"); (2%Q, $"Cl-")]);
  ($"UO2F2", [(1%Q, $"UO2++"); (2%Q, $"F-")]);
  ($"UO2HPO4", [(1%Q, $"UO2++"); (1%Q, $"HPO4--")]);
  ($"UO2SO3", [(1%Q, $"UO2++"); (1%Q, $"SO3--")]);
  ($"UO2SO4", [(1%Q, $"UO2++"); (1%Q, $"SO4--")]);
  ($"VO2F", [(1%Q, $"VO2+"); (1%Q, $"F-")]);
  ($"VO2H2PO4", [(1%Q, $"VO2+"); (1%Q, $"H+"); (1%Q, $"HPO4--")]);
  ($"VOF2", [(1%Q, $"VO++"); (2%Q, $"F-")]);
  ($"VOSO4", [(1%Q, $"VO++"); (1%Q, $"SO4--")]);
  ($"YbCl3", [(1%Q, $"Yb+++"); (3%Q, $"Cl-")]);
  ($"YbF3", [(1%Q, $"Yb+++"); (3%Q, $"F-")]);
  ($"YF3", [(1%Q, $"Y+++"); (3%Q, $"F-")]);
  ($"Zn(N3)2", [(1%Q, $"Zn++"); (2%Q, $"N3-")]);
  ($"Zn(SCN)2", [(1%Q, $"Zn++"); (2%Q, $"SCN-")]);
  ($"ZnBr2", [(1%Q, $"Zn++"); (2%Q, $"Br-")]);
  ($"ZnCl2", [(1%Q, $"Zn++"); (2%Q, $"Cl-")]);
  ($"ZnHPO4", [(1%Q, $"Zn++"); (1%Q, $"HPO4--")]);
  ($"ZnI2", [(1%Q, $"Zn++"); (2%Q, $"I-")]);
  ($"ZnSeO4", [(1%Q, $"Zn++"); (1%Q, $"SeO4--")]);
  ($"ZnSO4", [(1%Q, $"Zn++"); (1%Q, $"SO4--")]);
  ($"Zr(SO4)2", [(1%Q, $"Zr++++"); (2%Q, $"SO4--")]);
  ($"ZrF4", [(1%Q, $"Zr++++"); (4%Q, $"F-")])].
(* The formulas of the table are parsed when the program starts. *)
Definition parse_reaction (r : str * list (Q * str)) : outcome Dissociation :=
  bind (mkChemicalFormula (fst r)) (fun c =>
  bind (mapM (fun ci => omap (fun f => (fst ci, f)) (mkChemicalFormula (snd ci))) (snd r)) (fun ions =>
  Ok (mkDis c ions))).
Definition default_reactions : outcome (list Dissociation) := mapM parse_reaction dissociation_table.
(* DissociationReactions.cpp:225-237, append. *)
Fixpoint dis_append (reactions : list Dissociation) (r : Dissociation) : list Dissociation :=
  match reactions with
  | [] => [r]
  | current :: rest => if equivalent (dr_complex r) (dr_complex current) then mkDis (dr_complex current) (dr_ions r) :: rest
                       else current :: dis_append rest r
  end.
(* DissociationReactions.cpp:244-249, get. *)
Definition dis_get (reactions : list Dissociation) (complex : ChemicalFormula) : option Dissociation :=
  nth_error reactions (indexfn reactions (fun r => equivalent (dr_complex r) complex)).
(* DissociationReactions.cpp:251-259, coefficient. *)
Fixpoint ion_coefficient (ions : list (Q * ChemicalFormula)) (ion : ChemicalFormula) : Q :=
  match ions with
  | [] => 0%Q
  | (c, product) :: rest => if equivalent product ion then c else ion_coefficient rest ion
  end.
Definition dis_coefficient (reactions : list Dissociation) (complex ion : ChemicalFormula) : Q :=
  match dis_get reactions complex with Some r => ion_coefficient (dr_ions r) ion | None => 0%Q end.
(* Calls that change the registry; DissociationReactions.cpp:220-223 for reset. *)
Inductive dis_call := DAppend (r : Dissociation) | DReset.
Definition dis_step (defaults : list Dissociation) (reactions : list Dissociation) (c : dis_call) : list Dissociation :=
  match c with DAppend r => dis_append reactions r | DReset => defaults end.

(* ---- Critical properties ---- *)
(* CriticalProps.hpp:31-41. *)
Record Critical := mkCrit { cr_T : Q; cr_P : Q; cr_omega : Q }.
(* CriticalProps.hpp:92-96. *)
Record Substance := mkSub { su_data : Critical; su_names : list str }.
(* CriticalProps.cpp:34-124. *)
Definition critical_table : list (Critical * list str) := [
  (mkCrit (953 # 5) (4599000 # 1) (3 # 250), [$"METHANE"; $"CH4"]);
  (mkCrit (3053 # 10) (4872000 # 1) (1 # 10), [$"ETHANE"; $"C2H6"]);
  (mkCrit (1849 # 5) (4248000 # 1) (19 # 125), [$"PROPANE"; $"C3H8"]);
  (mkCrit (4251 # 10) (3796000 # 1) (1 # 5), [$"N-BUTANE"]);
  (mkCrit (4697 # 10) (3370000 # 1) (63 # 250), [$"N-PENTANE"; $"C5H12"]);
  (mkCrit (2538 # 5) (3025000 # 1) (301 # 1000), [$"N-HEXANE"; $"C6H14"]);
  (mkCrit (2701 # 5) (2740000 # 1) (7 # 20), [$"N-HEPTANE"]);
  (mkCrit (5687 # 10) (2490000 # 1) (2 # 5), [$"N-OCTANE"]);
  (mkCrit (2973 # 5) (2290000 # 1) (111 # 250), [$"N-NONANE"]);
  (mkCrit (6177 # 10) (2110000 # 1) (123 # 250), [$"N-DECANE"]);
  (mkCrit (4081 # 10) (3648000 # 1) (181 # 1000), [$"ISOBUTANE"]);
  (mkCrit (544 # 1) (2568000 # 1) (151 # 500), [$"ISOOCTANE"]);
  (mkCrit (2559 # 5) (4502000 # 1) (49 # 250), [$"CYCLOPENTANE"]);
  (mkCrit (2768 # 5) (4073000 # 1) (21 # 100), [$"CYCLOHEXANE"; $"C6H12"]);
  (mkCrit (2664 # 5) (3785000 # 1) (23 # 100), [$"METHYLCYCLOPENTANE"]);
  (mkCrit (2861 # 5) (3471000 # 1) (47 # 200), [$"METHYLCYCLOHEXANE"]);
  (mkCrit (2823 # 10) (5040000 # 1) (87 # 1000), [$"ETHYLENE"; $"C2H4"]);
  (mkCrit (1828 # 5) (4665000 # 1) (7 # 50), [$"PROPYLENE"; $"C3H6"]);
  (mkCrit (420 # 1) (4043000 # 1) (191 # 1000), [$"1-BUTENE"; $"C4H8"]);
  (mkCrit (2178 # 5) (4243000 # 1) (41 # 200), [$"CIS-2-BUTENE"]);
  (mkCrit (2143 # 5) (4100000 # 1) (109 # 500), [$"TRANS-2-BUTENE"]);
  (mkCrit (504 # 1) (3140000 # 1) (7 # 25), [$"1-HEXENE"]);
  (mkCrit (4179 # 10) (4000000 # 1) (97 # 500), [$"ISOBUTYLENE"]);
  (mkCrit (2126 # 5) (4277000 # 1) (19 # 100), [$"1,3-BUTADIENE"]);
  (mkCrit (2802 # 5) (4350000 # 1) (53 # 250), [$"CYCLOHEXENE"]);
  (mkCrit (3083 # 10) (6139000 # 1) (187 # 1000), [$"ACETYLENE"; $"C2H2"]);
  (mkCrit (2811 # 5) (4898000 # 1) (21 # 100), [$"BENZENE"; $"C6H6"]);
  (mkCrit (2959 # 5) (4106000 # 1) (131 # 500), [$"TOLUENE"; $"C7H8"]);
  (mkCrit (3086 # 5) (3606000 # 1) (303 # 1000), [$"ETHYLBENZENE"]);
  (mkCrit (6311 # 10) (3209000 # 1) (163 # 500), [$"CUMENE"]);
  (mkCrit (6303 # 10) (3734000 # 1) (31 # 100), [$"O-XYLENE"]);
  (mkCrit (6171 # 10) (3536000 # 1) (163 # 500), [$"M-XYLENE"]);
  (mkCrit (3081 # 5) (3511000 # 1) (161 # 500), [$"P-XYLENE"]);
  (mkCrit (636 # 1) (3840000 # 1) (297 # 1000), [$"STYRENE"]);
  (mkCrit (3742 # 5) (4051000 # 1) (151 # 500), [$"NAPHTHALENE"]);
  (mkCrit (7893 # 10) (3850000 # 1) (73 # 200), [$"BIPHENYL"]);
  (mkCrit (408 # 1) (6590000 # 1) (141 # 500), [$"FORMALDEHYDE"]);
  (mkCrit (466 # 1) (5550000 # 1) (291 # 1000), [$"ACETALDEHYDE"]);
  (mkCrit (2533 # 5) (4750000 # 1) (331 # 1000), [$"METHYL-ACETATE"]);
  (mkCrit (5233 # 10) (3880000 # 1) (183 # 500), [$"ETHYL-ACETATE"]);
  (mkCrit (2541 # 5) (4701000 # 1) (307 # 1000), [$"ACETONE"]);
  (mkCrit (1071 # 2) (4150000 # 1) (323 # 1000), [$"METHYL-ETHYL-KETONE"]);
  (mkCrit (4667 # 10) (3640000 # 1) (281 # 1000), [$"DIETHYL-ETHER"]);
  (mkCrit (4971 # 10) (3430000 # 1) (133 # 500), [$"METHYL-T-BUTYL-ETHER"]);
  (mkCrit (2563 # 5) (8097000 # 1) (141 # 250), [$"METHANOL"; $"CH4O"]);
  (mkCrit (5139 # 10) (6148000 # 1) (129 # 200), [$"ETHANOL"; $"C2H6O"]);
  (mkCrit (2684 # 5) (5175000 # 1) (311 # 500), [$"1-PROPANOL"]);
  (mkCrit (5631 # 10) (4423000 # 1) (297 # 500), [$"1-BUTANOL"]);
  (mkCrit (3057 # 5) (3510000 # 1) (579 # 1000), [$"1-HEXANOL"]);
  (mkCrit (5083 # 10) (4762000 # 1) (167 # 250), [$"2-PROPANOL"]);
  (mkCrit (6943 # 10) (6130000 # 1) (111 # 250), [$"PHENOL"]);
  (mkCrit (7197 # 10) (7700000 # 1) (487 # 1000), [$"ETHYLENE-GLYCOL"]);
  (mkCrit (592 # 1) (5786000 # 1) (467 # 1000), [$"ACETIC-ACID"]);
  (mkCrit (6157 # 10) (4064000 # 1) (681 # 1000), [$"N-BUTYRIC-ACID"]);
  (mkCrit (751 # 1) (4470000 # 1) (603 # 1000), [$"BENZOIC-ACID"]);
  (mkCrit (1091 # 2) (4830000 # 1) (169 # 500), [$"ACETONITRILE"]);
  (mkCrit (4301 # 10) (7460000 # 1) (281 # 1000), [$"METHYLAMINE"]);
  (mkCrit (2281 # 5) (5620000 # 1) (57 # 200), [$"ETHYLAMINE"]);
  (mkCrit (2941 # 5) (6310000 # 1) (87 # 250), [$"NITROMETHANE"]);
  (mkCrit (2782 # 5) (4560000 # 1) (193 # 1000), [$"CARBON-TETRACHLORIDE"]);
  (mkCrit (2682 # 5) (5472000 # 1) (111 # 500), [$"CHLOROFORM"]);
  (mkCrit (510 # 1) (6080000 # 1) (199 # 1000), [$"DICHLOROMETHANE"]);
  (mkCrit (4163 # 10) (6680000 # 1) (153 # 1000), [$"METHYL-CHLORIDE"]);
  (mkCrit (2302 # 5) (5270000 # 1) (19 # 100), [$"ETHYL-CHLORIDE"]);
  (mkCrit (3162 # 5) (4520000 # 1) (1 # 4), [$"CHLOROBENZENE"]);
  (mkCrit (1871 # 5) (4060000 # 1) (327 # 1000), [$"TETRAFLUOROETHANE"]);
  (mkCrit (1509 # 10) (4898000 # 1) (0 # 1), [$"ARGON"; $"Ar"]);
  (mkCrit (1047 # 5) (5502000 # 1) (0 # 1), [$"KRYPTON"; $"Kr"]);
  (mkCrit (2897 # 10) (5840000 # 1) (0 # 1), [$"XENON"; $"Xe"]);
  (mkCrit (26 # 5) (228000 # 1) ((-39 # 100)), [$"HELIUM"; $"He"]);
  (mkCrit (3319 # 100) (1313000 # 1) ((-27 # 125)), [$"HYDROGEN"; $"H2"]);
  (mkCrit (773 # 5) (5043000 # 1) (11 # 500), [$"OXYGEN"; $"O2"]);
  (mkCrit (631 # 5) (3400000 # 1) (19 # 500), [$"NITROGEN"; $"N2"]);
  (mkCrit (661 # 5) (3745000 # 1) (7 # 200), [$"AIR"]);
  (mkCrit (2086 # 5) (7710000 # 1) (69 # 1000), [$"CHLORINE"; $"Cl2"]);
  (mkCrit (1329 # 10) (3499000 # 1) (6 # 125), [$"CARBON-MONOXIDE"; $"CO"]);
  (mkCrit (1521 # 5) (7383000 # 1) (28 # 125), [$"CARBON-DIOXIDE"; $"CO2"]);
  (mkCrit (552 # 1) (7900000 # 1) (111 # 1000), [$"CARBON-DISULFIDE"; $"CS2"]);
  (mkCrit (747 # 2) (8963000 # 1) (47 # 500), [$"HYDROGEN-SULFIDE"; $"H2S"]);
  (mkCrit (2154 # 5) (7884000 # 1) (49 # 200), [$"SULFUR-DIOXIDE"; $"SO2"]);
  (mkCrit (4909 # 10) (8210000 # 1) (53 # 125), [$"SULFUR-TRIOXIDE"; $"SO3"]);
  (mkCrit (901 # 5) (6480000 # 1) (583 # 1000), [$"NITRIC-OXIDE"; $"NO"]);
  (mkCrit (1548 # 5) (7245000 # 1) (141 # 1000), [$"NITROUS-OXIDE"; $"N2O"]);
  (mkCrit (3247 # 10) (8310000 # 1) (33 # 250), [$"HYDROGEN-CHLORIDE"; $"HCl"]);
  (mkCrit (4567 # 10) (5390000 # 1) (41 # 100), [$"HYDROGEN-CYANIDE"; $"HCN"]);
  (mkCrit (6471 # 10) (22055000 # 1) (69 # 200), [$"WATER"; $"H2O"]);
  (mkCrit (4057 # 10) (11280000 # 1) (253 # 1000), [$"AMMONIA"; $"NH3"]);
  (mkCrit (520 # 1) (6890000 # 1) (357 # 500), [$"NITRIC-ACID"; $"HNO3"]);
  (mkCrit (924 # 1) (6400000 # 1) (0 # 1), [$"SULFURIC-ACID"; $"H2SO4"]);
  (mkCrit (377 # 1) (6280000 # 1) (0 # 1), [$"RADON"; $"Ra"]);
  (mkCrit (222 # 5) (2760000 # 1) (0 # 1), [$"NEON"; $"Ne"])].
(* StringUtils.hpp:95-99, toupper of the C locale. *)
Definition toupper (c : ascii) : ascii := if islower c then ascii_of_N (code c - 32) else c.
Definition uppercase (s : str) : str := map toupper s.
(* CriticalProps.cpp:132-139, correctName. *)
Definition correctName (name : str) : outcome str :=
  bind (splitSpeciesNameSuffix name) (fun p =>
  omap uppercase (replace (fst p) $" " $"-")).
(* CriticalProps.cpp:142-147 and 155-157. *)
Definition mkSubstance (data : Critical) (names : list str) : outcome Substance :=
  omap (mkSub data) (mapM correctName names).
Definition default_substances : outcome (list Substance) := mapM (fun s => mkSubstance (fst s) (snd s)) critical_table.
(* CriticalProps.cpp:159-163 and 170-174, setTemperature and setPressure. *)
Definition setTemperature (s : Substance) (v : Q) : outcome Substance :=
  if Qle_bool v 0 then Err else Ok (mkSub (mkCrit v (cr_P (su_data s)) (cr_omega (su_data s))) (su_names s)).
Definition setPressure (s : Substance) (v : Q) : outcome Substance :=
  if Qle_bool v 0 then Err else Ok (mkSub (mkCrit (cr_T (su_data s)) v (cr_omega (su_data s))) (su_names s)).
(* CriticalProps.cpp:235-251, append. *)
Definition crit_append (l : list Substance) (s : Substance) : outcome (list Substance) :=
  if forallb (fun current => disjoint str_eqb (su_names s) (su_names current)) l then Ok (l ++ [s]) else Err.
(* CriticalProps.cpp:253-267, overwrite. *)
Fixpoint crit_overwrite (l : list Substance) (s : Substance) : list Substance :=
  match l with
  | [] => [s]
  | current :: rest => if negb (disjoint str_eqb (su_names s) (su_names current)) then s :: rest else current :: crit_overwrite rest s
  end.
(* CriticalProps.cpp:274-280 and 282-288, get. *)
Definition crit_find (l : list Substance) (name : str) : option Substance :=
  nth_error l (indexfn l (fun s => contains str_eqb (su_names s) name)).
Definition crit_get (l : list Substance) (name : str) : outcome (option Substance) := omap (crit_find l) (correctName name).
Fixpoint crit_get_any (l : list Substance) (names : list str) : outcome (option Substance) :=
  match names with
  | [] => Ok None
  | n :: rest => bind (crit_get l n) (fun r => match r with Some s => Ok (Some s) | None => crit_get_any l rest end)
  end.
Inductive crit_call := CAppend (s : Substance) | COverwrite (s : Substance).
(* A rejected append leaves the registry as it was. *)
Definition crit_step (l : list Substance) (c : crit_call) : list Substance :=
  match c with
  | CAppend s => match crit_append l s with Ok l' => l' | _ => l end
  | COverwrite s => crit_overwrite l s
  end.

(* ---- Elements ---- *)
(* Elements.cpp:30-147. *)
Definition default_elements : list Element := [
  mkElem $"H" $"Hydrogen" (50397 # 50000000) [];
  mkElem $"He" $"Helium" (2001301 # 500000000) [];
  mkElem $"Li" $"Lithium" (6941 # 1000000) [];
  mkElem $"Be" $"Beryllium" (450609 # 50000000) [];
  mkElem $"B" $"Boron" (10811 # 1000000) [];
  mkElem $"C" $"Carbon" (12011 # 1000000) [];
  mkElem $"N" $"Nitrogen" (700337 # 50000000) [];
  mkElem $"O" $"Oxygen" (79997 # 5000000) [];
  mkElem $"F" $"Fluorine" (18998403 # 1000000000) [];
  mkElem $"Ne" $"Neon" (201797 # 10000000) [];
  mkElem $"Na" $"Sodium" (2873721 # 125000000) [];
  mkElem $"Mg" $"Magnesium" (4861 # 200000) [];
  mkElem $"Al" $"Aluminum" (26981539 # 1000000000) [];
  mkElem $"Si" $"Silicon" (56171 # 2000000) [];
  mkElem $"P" $"Phosphorus" (15486881 # 500000000) [];
  mkElem $"S" $"Sulfur" (16033 # 500000) [];
  mkElem $"Cl" $"Chlorine" (354527 # 10000000) [];
  mkElem $"Ar" $"Argon" (9987 # 250000) [];
  mkElem $"K" $"Potassium" (390983 # 10000000) [];
  mkElem $"Ca" $"Calcium" (20039 # 500000) [];
  mkElem $"Sc" $"Scandium" (4495591 # 100000000) [];
  mkElem $"Ti" $"Titanium" (1197 # 25000) [];
  mkElem $"V" $"Vanadium" (101883 # 2000000) [];
  mkElem $"Cr" $"Chromium" (519961 # 10000000) [];
  mkElem $"Mn" $"Manganese" (1098761 # 20000000) [];
  mkElem $"Fe" $"Iron" (55847 # 1000000) [];
  mkElem $"Co" $"Cobalt" (147333 # 2500000) [];
  mkElem $"Ni" $"Nickel" (293467 # 5000000) [];
  mkElem $"Cu" $"Copper" (31773 # 500000) [];
  mkElem $"Zn" $"Zinc" (6539 # 100000) [];
  mkElem $"Ga" $"Gallium" (69723 # 1000000) [];
  mkElem $"Ge" $"Germanium" (7261 # 100000) [];
  mkElem $"As" $"Arsenic" (7492159 # 100000000) [];
  mkElem $"Se" $"Selenium" (987 # 12500) [];
  mkElem $"Br" $"Bromine" (2497 # 31250) [];
  mkElem $"Kr" $"Krypton" (419 # 5000) [];
  mkElem $"Rb" $"Rubidium" (427339 # 5000000) [];
  mkElem $"Sr" $"Strontium" (4381 # 50000) [];
  mkElem $"Y" $"Yttrium" (1778117 # 20000000) [];
  mkElem $"Zr" $"Zirconium" (11403 # 125000) [];
  mkElem $"Nb" $"Niobium" (4645319 # 50000000) [];
  mkElem $"Mo" $"Molybdenum" (4797 # 50000) [];
  mkElem $"Tc" $"Technetium" (7649 # 78125) [];
  mkElem $"Ru" $"Ruthenium" (10107 # 100000) [];
  mkElem $"Rh" $"Rhodium" (205811 # 2000000) [];
  mkElem $"Pd" $"Palladium" (5321 # 50000) [];
  mkElem $"Ag" $"Silver" (539341 # 5000000) [];
  mkElem $"Cd" $"Cadmium" (112411 # 1000000) [];
  mkElem $"In" $"Indium" (57409 # 500000) [];
  mkElem $"Sn" $"Tin" (11871 # 100000) [];
  mkElem $"Sb" $"Antimony" (761 # 6250) [];
  mkElem $"Te" $"Tellurium" (319 # 2500) [];
  mkElem $"I" $"Iodine" (12690447 # 100000000) [];
  mkElem $"Xe" $"Xenon" (13129 # 100000) [];
  mkElem $"Cs" $"Cesium" (13290543 # 100000000) [];
  mkElem $"Ba" $"Barium" (137327 # 1000000) [];
  mkElem $"La" $"Lanthanum" (277811 # 2000000) [];
  mkElem $"Ce" $"Cerium" (28023 # 200000) [];
  mkElem $"Pr" $"Praseodymium" (2818153 # 20000000) [];
  mkElem $"Nd" $"Neodymium" (1803 # 12500) [];
  mkElem $"Pm" $"Promethium" (1449127 # 10000000) [];
  mkElem $"Sm" $"Samarium" (3759 # 25000) [];
  mkElem $"Eu" $"Europium" (30393 # 200000) [];
  mkElem $"Gd" $"Gadolinium" (629 # 4000) [];
  mkElem $"Tb" $"Terbium" (7946267 # 50000000) [];
  mkElem $"Dy" $"Dysprosium" (13 # 80) [];
  mkElem $"Ho" $"Holmium" (2061629 # 12500000) [];
  mkElem $"Er" $"Erbium" (8363 # 50000) [];
  mkElem $"Tm" $"Thulium" (16893421 # 100000000) [];
  mkElem $"Yb" $"Ytterbium" (2163 # 12500) [];
  mkElem $"Lu" $"Lutetium" (174967 # 1000000) [];
  mkElem $"Hf" $"Hafnium" (17849 # 100000) [];
  mkElem $"Ta" $"Tantalum" (1809479 # 10000000) [];
  mkElem $"W" $"Tungsten" (1149 # 6250) [];
  mkElem $"Re" $"Rhenium" (186207 # 1000000) [];
  mkElem $"Os" $"Osmium" (19023 # 100000) [];
  mkElem $"Ir" $"Iridium" (9611 # 50000) [];
  mkElem $"Pt" $"Platinum" (4877 # 25000) [];
  mkElem $"Au" $"Gold" (9848327 # 50000000) [];
  mkElem $"Hg" $"Mercury" (20059 # 100000) [];
  mkElem $"Tl" $"Thallium" (2043833 # 10000000) [];
  mkElem $"Pb" $"Lead" (259 # 1250) [];
  mkElem $"Bi" $"Bismuth" (20898037 # 100000000) [];
  mkElem $"Po" $"Polonium" (65307 # 312500) [];
  mkElem $"At" $"Astatine" (2099871 # 10000000) [];
  mkElem $"Rn" $"Radon" (138761 # 625000) [];
  mkElem $"Fr" $"Francium" (2230197 # 10000000) [];
  mkElem $"Ra" $"Radium" (1130127 # 5000000) [];
  mkElem $"Ac" $"Actinium" (1135139 # 5000000) [];
  mkElem $"Th" $"Thorium" (2320381 # 10000000) [];
  mkElem $"Pa" $"Protactinium" (5775897 # 25000000) [];
  mkElem $"U" $"Uranium" (2380289 # 10000000) [];
  mkElem $"Np" $"Neptunium" (29631 # 125000) [];
  mkElem $"Pu" $"Plutonium" (1220321 # 5000000) [];
  mkElem $"Am" $"Americium" (1215307 # 5000000) [];
  mkElem $"Cm" $"Curium" (2470703 # 10000000) [];
  mkElem $"Bk" $"Berkelium" (2470703 # 10000000) [];
  mkElem $"Cf" $"Californium" (627699 # 2500000) [];
  mkElem $"Es" $"Einsteinium" (252083 # 1000000) [];
  mkElem $"Fm" $"Fermium" (2570951 # 10000000) [];
  mkElem $"Md" $"Mendelevium" (2581 # 10000) [];
  mkElem $"No" $"Nobelium" (2591009 # 10000000) [];
  mkElem $"Lr" $"Lawrencium" (26211 # 100000) [];
  mkElem $"Rf" $"Rutherfordium" (261 # 1000) [];
  mkElem $"Db" $"Dubnium" (131 # 500) [];
  mkElem $"Sg" $"Seaborgium" (133 # 500) [];
  mkElem $"Bh" $"Bohrium" (33 # 125) [];
  mkElem $"Hs" $"Hassium" (269 # 1000) [];
  mkElem $"Mt" $"Meitnerium" (67 # 250) [];
  mkElem $"Ds" $"Darmstadtium" (269 # 1000) [];
  mkElem $"Rg" $"Roentgenium" (34 # 125) [];
  mkElem $"Cn" $"Copernicium" (277 # 1000) [];
  mkElem $"Nh" $"Nihonium" (0 # 1) [];
  mkElem $"Fl" $"Flerovium" (289 # 1000) [];
  mkElem $"Mc" $"Moscovium" (0 # 1) [];
  mkElem $"Lv" $"Livermorium" (0 # 1) [];
  mkElem $"Ts" $"Tennessine" (0 # 1) [];
  mkElem $"Og" $"Oganesson" (0 # 1) []].
(* Elements.cpp:170-174, append. *)
Definition elements_append (l : list Element) (e : Element) : list Element := l ++ [e].
(* Elements.cpp:181-186, 188-193, 195-198 and 200-203. *)
Definition element_withSymbol (l : list Element) (symbol : str) : option Element :=
  nth_error l (indexfn l (fun e => str_eqb (el_symbol e) symbol)).
Definition element_withName (l : list Element) (name : str) : option Element :=
  nth_error l (indexfn l (fun e => str_eqb (el_name e) name)).
Definition elements_withTag (l : list Element) (tag : str) : list Element :=
  filter l (fun e => contains str_eqb (el_tags e) tag).
Definition elements_withTags (l : list Element) (tags : list str) : list Element :=
  filter l (fun e => contained str_eqb tags (el_tags e)).
