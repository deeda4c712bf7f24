(* Model of the Pitzer activity model of Harvie, Moller and Weare
   (Reaktoro/Thermodynamics/Aqueous/ActivityModelPitzerHMW.cpp) over the real
   numbers.  The tables of parameters are those of the source; sums are taken in
   another order.  A division by zero, the root of a negative number and the
   logarithm of a number that is not positive have unspecified values; theorems
   are about arguments where none occurs. *)
From Coq Require Import Reals Qreals List Bool ZArith.
Import ListNotations.
From Verif Require Import Base M_Strings M_Formula M_Chem M_System M_Registry M_CubicEOS M_Aqueous.
Local Open Scope R_scope.

(* Aqueous/ActivityModelPitzerHMW.cpp:67-123. *)
Definition beta0_data : list (str * str * list Q) := [
  ($"Ba++", $"Br-", [(31455 # 100000)%Q; (-33825 # 100000000)%Q]); ($"Ba++", $"Cl-", [(2628 # 10000)%Q; (6405 # 10000000)%Q]);
  ($"Ba++", $"OH-", [(17175 # 100000)%Q]); ($"Ca++", $"Br-", [(3816 # 10000)%Q; (-52275 # 100000000)%Q]);
  ($"Ca++", $"Cl-", [(3159 # 10000)%Q; (-1725 # 10000000)%Q]); ($"Ca++", $"HCO3-", [(4 # 10)%Q]);
  ($"Ca++", $"HSO4-", [(2145 # 10000)%Q]); ($"Ca++", $"OH-", [(-1747 # 10000)%Q]);
  ($"Ca++", $"SO4--", [(2 # 10)%Q]); ($"CaB(OH)4+", $"Cl-", [(12 # 100)%Q]);
  ($"Fe++", $"Cl-", [(33593 # 100000)%Q]); ($"Fe++", $"HSO4-", [(4273 # 10000)%Q]);
  ($"Fe++", $"SO4--", [(2568 # 10000)%Q]); ($"H+", $"Br-", [(196 # 1000)%Q; (-2049 # 10000000)%Q]);
  ($"H+", $"Cl-", [(1775 # 10000)%Q; (-3081 # 10000000)%Q]); ($"H+", $"HSO4-", [(2065 # 10000)%Q]);
  ($"H+", $"SO4--", [(298 # 10000)%Q]); ($"K+", $"B(OH)4-", [(35 # 1000)%Q]);
  ($"K+", $"B3O3(OH)4-", [(-13 # 100)%Q]); ($"K+", $"B4O5(OH)4--", [(-22 # 1000)%Q]);
  ($"K+", $"Br-", [(569 # 10000)%Q; (739 # 1000000)%Q]); ($"K+", $"Cl-", [(4835 # 100000)%Q; (5794 # 10000000)%Q]);
  ($"K+", $"CO3--", [(1488 # 10000)%Q; (1788 # 1000000)%Q]); ($"K+", $"HCO3-", [(296 # 10000)%Q; (996 # 1000000)%Q]);
  ($"K+", $"HSO4-", [(-3 # 10000)%Q]); ($"K+", $"OH-", [(1298 # 10000)%Q]);
  ($"K+", $"SO4--", [(4995 # 100000)%Q; (144 # 100000)%Q]); ($"Li+", $"Br-", [(1748 # 10000)%Q; (-1819 # 10000000)%Q]);
  ($"Li+", $"Cl-", [(1494 # 10000)%Q; (-1685 # 10000000)%Q]); ($"Li+", $"OH-", [(15 # 1000)%Q]);
  ($"Li+", $"SO4--", [(13628 # 100000)%Q; (5055 # 10000000)%Q]); ($"Mg++", $"Br-", [(4327 # 10000)%Q; (-5625 # 100000000)%Q]);
  ($"Mg++", $"Cl-", [(35235 # 100000)%Q; (-1943 # 10000000)%Q]); ($"Mg++", $"HCO3-", [(329 # 1000)%Q]);
  ($"Mg++", $"HSO4-", [(4746 # 10000)%Q]); ($"Mg++", $"SO4--", [(221 # 1000)%Q; (-69 # 100000)%Q]);
  ($"MgB(OH)4+", $"Cl-", [(16 # 100)%Q]); ($"MgOH+", $"Cl-", [(-1 # 10)%Q]);
  ($"Mn++", $"Cl-", [(32723 # 100000)%Q]); ($"Mn++", $"SO4--", [(2065 # 10000)%Q]);
  ($"Na+", $"B(OH)4-", [(-427 # 10000)%Q]); ($"Na+", $"B3O3(OH)4-", [(-56 # 1000)%Q]);
  ($"Na+", $"B4O5(OH)4--", [(-11 # 100)%Q]); ($"Na+", $"Br-", [(973 # 10000)%Q; (7692 # 10000000)%Q]);
  ($"Na+", $"Cl-", [(765 # 10000)%Q; (-77703 # 100)%Q; (-44706 # 10000)%Q; (8946 # 1000000)%Q; (-33158 # 10000000000)%Q]); ($"Na+", $"CO3--", [(399 # 10000)%Q; (179 # 100000)%Q]);
  ($"Na+", $"HCO3-", [(277 # 10000)%Q; (1 # 1000)%Q]); ($"Na+", $"HSO4-", [(454 # 10000)%Q]);
  ($"Na+", $"OH-", [(864 # 10000)%Q; (7 # 10000)%Q]); ($"Na+", $"SO4--", [(1958 # 100000)%Q; (2367 # 1000000)%Q]);
  ($"Sr++", $"Br-", [(33113 # 100000)%Q; (-32775 # 100000000)%Q]); ($"Sr++", $"Cl-", [(2858 # 10000)%Q; (717 # 1000000)%Q]);
  ($"Sr++", $"HCO3-", [(12 # 100)%Q]); ($"Sr++", $"SO4--", [(2 # 10)%Q; (-29 # 10000)%Q])].
(* Aqueous/ActivityModelPitzerHMW.cpp:125-175. *)
Definition beta1_data : list (str * str * list Q) := [
  ($"Ba++", $"Br-", [(156975 # 100000)%Q; (678 # 100000)%Q]); ($"Ba++", $"Cl-", [(149625 # 100000)%Q; (32325 # 10000000)%Q]);
  ($"Ba++", $"OH-", [(12 # 10)%Q]); ($"Ca++", $"Br-", [(1613 # 1000)%Q; (60375 # 10000000)%Q]);
  ($"Ca++", $"Cl-", [(1614 # 1000)%Q; (39 # 10000)%Q]); ($"Ca++", $"HCO3-", [(2977 # 1000)%Q]);
  ($"Ca++", $"HSO4-", [(253 # 100)%Q]); ($"Ca++", $"OH-", [(-2303 # 10000)%Q]);
  ($"Ca++", $"SO4--", [(31973 # 10000)%Q; (546 # 10000)%Q]); ($"Fe++", $"Cl-", [(153225 # 100000)%Q]);
  ($"Fe++", $"HSO4-", [(348 # 100)%Q]); ($"Fe++", $"SO4--", [(3063 # 1000)%Q]);
  ($"H+", $"Br-", [(3564 # 10000)%Q; (4467 # 10000000)%Q]); ($"H+", $"Cl-", [(2945 # 10000)%Q; (1419 # 10000000)%Q]);
  ($"H+", $"HSO4-", [(5556 # 10000)%Q]); ($"K+", $"B(OH)4-", [(14 # 100)%Q]);
  ($"K+", $"Br-", [(2212 # 10000)%Q; (174 # 100000)%Q]); ($"K+", $"Cl-", [(2122 # 10000)%Q; (1071 # 1000000)%Q]);
  ($"K+", $"CO3--", [(143 # 100)%Q; (2051 # 1000000)%Q]); ($"K+", $"HCO3-", [(-13 # 1000)%Q; (1104 # 1000000)%Q]);
  ($"K+", $"HSO4-", [(1735 # 10000)%Q]); ($"K+", $"OH-", [(32 # 100)%Q]);
  ($"K+", $"SO4--", [(7793 # 10000)%Q; (66975 # 10000000)%Q]); ($"Li+", $"Br-", [(2547 # 10000)%Q; (6636 # 10000000)%Q]);
  ($"Li+", $"Cl-", [(3074 # 10000)%Q; (5366 # 10000000)%Q]); ($"Li+", $"OH-", [(14 # 100)%Q]);
  ($"Li+", $"SO4--", [(12705 # 10000)%Q; (141 # 100000)%Q]); ($"Mg++", $"Br-", [(1753 # 1000)%Q; (38625 # 10000000)%Q]);
  ($"Mg++", $"Cl-", [(16815 # 10000)%Q; (36525 # 10000000)%Q]); ($"Mg++", $"HCO3-", [(6072 # 10000)%Q]);
  ($"Mg++", $"HSO4-", [(1729 # 1000)%Q]); ($"Mg++", $"SO4--", [(3343 # 1000)%Q; (153 # 10000)%Q]);
  ($"MgOH+", $"Cl-", [(1658 # 1000)%Q]); ($"Mn++", $"Cl-", [(155025 # 100000)%Q]);
  ($"Mn++", $"SO4--", [(29511 # 10000)%Q]); ($"Na+", $"B(OH)4-", [(89 # 1000)%Q]);
  ($"Na+", $"B3O3(OH)4-", [(-91 # 100)%Q]); ($"Na+", $"B4O5(OH)4--", [(-4 # 10)%Q]);
  ($"Na+", $"Br-", [(2791 # 10000)%Q; (1079 # 1000000)%Q]); ($"Na+", $"Cl-", [(2664 # 10000)%Q; 0%Q; 0%Q; (61608 # 1000000000)%Q; (10715 # 10000000000)%Q]);
  ($"Na+", $"CO3--", [(1389 # 1000)%Q; (205 # 100000)%Q]); ($"Na+", $"HCO3-", [(411 # 10000)%Q; (11 # 10000)%Q]);
  ($"Na+", $"HSO4-", [(398 # 1000)%Q]); ($"Na+", $"OH-", [(253 # 1000)%Q; (134 # 1000000)%Q]);
  ($"Na+", $"SO4--", [(1113 # 1000)%Q; (56325 # 10000000)%Q]); ($"Sr++", $"Br-", [(17115 # 10000)%Q; (65325 # 10000000)%Q]);
  ($"Sr++", $"Cl-", [(1667 # 1000)%Q; (28425 # 10000000)%Q]); ($"Sr++", $"SO4--", [(31973 # 10000)%Q; (27 # 1000)%Q])].
(* Aqueous/ActivityModelPitzerHMW.cpp:177-185. *)
Definition beta2_data : list (str * str * list Q) := [
  ($"Ca++", $"OH-", [(-572 # 100)%Q]); ($"Ca++", $"SO4--", [(-5424 # 100)%Q; (-516 # 1000)%Q]);
  ($"Fe++", $"SO4--", [(-42)%Q]); ($"Mg++", $"SO4--", [(-3723 # 100)%Q; (-253 # 1000)%Q]);
  ($"Mn++", $"SO4--", [(-40)%Q]); ($"Sr++", $"SO4--", [(-5424 # 100)%Q; (-42 # 100)%Q])].
(* Aqueous/ActivityModelPitzerHMW.cpp:187-219. *)
Definition Cphi_data : list (str * str * list Q) := [
  ($"Ba++", $"Br-", [(-159576 # 10000000)%Q]); ($"Ba++", $"Cl-", [(-193782 # 10000000)%Q; (-153796 # 1000000000)%Q]);
  ($"Ca++", $"Br-", [(-257 # 100000)%Q]); ($"Ca++", $"Cl-", [(-34 # 100000)%Q]);
  ($"Fe++", $"Cl-", [(-860725 # 100000000)%Q]); ($"Fe++", $"SO4--", [(209 # 10000)%Q]);
  ($"H+", $"Br-", [(827 # 100000)%Q; (-5685 # 100000000)%Q]); ($"H+", $"Cl-", [(8 # 10000)%Q; (6213 # 100000000)%Q]);
  ($"H+", $"SO4--", [(438 # 10000)%Q]); ($"K+", $"Br-", [(-18 # 10000)%Q; (-7004 # 100000000)%Q]);
  ($"K+", $"Cl-", [(-84 # 100000)%Q; (-5095 # 100000000)%Q]); ($"K+", $"CO3--", [(-15 # 10000)%Q]);
  ($"K+", $"HCO3-", [(-8 # 1000)%Q]); ($"K+", $"OH-", [(41 # 10000)%Q]);
  ($"Li+", $"Br-", [(53 # 10000)%Q; (-2813 # 100000000)%Q]); ($"Li+", $"Cl-", [(359 # 100000)%Q; (-452 # 10000000)%Q]);
  ($"Li+", $"SO4--", [(-399338 # 100000000)%Q; (-233345 # 1000000000)%Q]); ($"Mg++", $"Br-", [(312 # 100000)%Q]);
  ($"Mg++", $"Cl-", [(519 # 100000)%Q; (-164933 # 1000000000)%Q]); ($"Mg++", $"SO4--", [(25 # 1000)%Q; (523 # 1000000)%Q]);
  ($"Mn++", $"Cl-", [(-204972 # 10000000)%Q]); ($"Mn++", $"SO4--", [(1636 # 100000)%Q]);
  ($"Na+", $"B(OH)4-", [(114 # 10000)%Q]); ($"Na+", $"Br-", [(116 # 100000)%Q; (-93 # 1000000)%Q]);
  ($"Na+", $"Cl-", [(127 # 100000)%Q; (33317 # 1000)%Q; (9421 # 100000)%Q; (-4655 # 100000000)%Q; 0%Q]); ($"Na+", $"CO3--", [(44 # 10000)%Q]);
  ($"Na+", $"OH-", [(44 # 10000)%Q; (-1894 # 10000000)%Q]); ($"Na+", $"SO4--", [(497 # 100000)%Q; (-487904 # 1000000000)%Q]);
  ($"Sr++", $"Br-", [(122506 # 100000000)%Q]); ($"Sr++", $"Cl-", [(-13 # 10000)%Q])].
(* Aqueous/ActivityModelPitzerHMW.cpp:221-252. *)
Definition theta_data : list (str * str * Q) := [
  ($"B(OH)4-", $"Cl-", (-65 # 1000)%Q); ($"B(OH)4-", $"SO4--", (-12 # 1000)%Q); ($"B3O3(OH)4-", $"Cl-", (12 # 100)%Q); ($"B3O3(OH)4-", $"HCO3-", (-1 # 10)%Q);
  ($"B3O3(OH)4-", $"SO4--", (1 # 10)%Q); ($"B4O5(OH)4--", $"Cl-", (74 # 1000)%Q); ($"B4O5(OH)4--", $"HCO3-", (-87 # 1000)%Q); ($"B4O5(OH)4--", $"SO4--", (12 # 100)%Q);
  ($"Br-", $"OH-", (-65 # 1000)%Q); ($"Ca++", $"H+", (92 # 1000)%Q); ($"Ca++", $"K+", (32 # 1000)%Q); ($"Ca++", $"Mg++", (7 # 1000)%Q);
  ($"Ca++", $"Na+", (7 # 100)%Q); ($"Cl-", $"CO3--", (-2 # 100)%Q); ($"Cl-", $"HCO3-", (3 # 100)%Q); ($"Cl-", $"HSO4-", (-6 # 1000)%Q);
  ($"Cl-", $"OH-", (-5 # 100)%Q); ($"Cl-", $"SO4--", (2 # 100)%Q); ($"CO3--", $"OH-", (1 # 10)%Q); ($"CO3--", $"SO4--", (2 # 100)%Q);
  ($"H+", $"K+", (5 # 1000)%Q); ($"H+", $"Mg++", (1 # 10)%Q); ($"H+", $"Na+", (36 # 1000)%Q); ($"HCO3-", $"CO3--", (-4 # 100)%Q);
  ($"HCO3-", $"SO4--", (1 # 100)%Q); ($"K+", $"Na+", (-12 # 1000)%Q); ($"Mg++", $"Na+", (7 # 100)%Q); ($"Na+", $"Sr++", (51 # 1000)%Q);
  ($"OH-", $"SO4--", (-13 # 1000)%Q)].
(* Aqueous/ActivityModelPitzerHMW.cpp:254-313. *)
Definition psi_data : list (str * str * str * Q) := [
  ($"B(OH)4-", $"Cl-", $"Na+", (-73 # 10000)%Q); ($"B3O3(OH)4-", $"Cl-", $"Na+", (-24 # 1000)%Q); ($"B4O5(OH)4--", $"Cl-", $"Na+", (26 # 1000)%Q);
  ($"Br-", $"K+", $"Na+", (-22 # 10000)%Q); ($"Br-", $"K+", $"OH-", (-14 # 1000)%Q); ($"Br-", $"Na+", $"H+", (-12 # 1000)%Q);
  ($"Br-", $"Na+", $"OH-", (-18 # 1000)%Q); ($"Ca++", $"Cl-", $"H+", (-15 # 1000)%Q); ($"Ca++", $"Cl-", $"K+", (-25 # 1000)%Q);
  ($"Ca++", $"Cl-", $"Mg++", (-12 # 1000)%Q); ($"Ca++", $"Cl-", $"Na+", (-7 # 1000)%Q); ($"Ca++", $"Cl-", $"OH-", (-25 # 1000)%Q);
  ($"Ca++", $"Cl-", $"SO4--", (-18 # 1000)%Q); ($"Ca++", $"Mg++", $"SO4--", (24 # 1000)%Q); ($"Ca++", $"Na+", $"SO4--", (-55 # 1000)%Q);
  ($"Cl-", $"Br-", $"K+", 0%Q); ($"Cl-", $"CO3--", $"K+", (4 # 1000)%Q); ($"Cl-", $"CO3--", $"Na+", (85 # 10000)%Q);
  ($"Cl-", $"H+", $"K+", (-11 # 1000)%Q); ($"Cl-", $"H+", $"Mg++", (-11 # 1000)%Q); ($"Cl-", $"H+", $"Na+", (-4 # 1000)%Q);
  ($"Cl-", $"HCO3-", $"Mg++", (-96 # 1000)%Q); ($"Cl-", $"HCO3-", $"Na+", (-15 # 1000)%Q); ($"Cl-", $"HSO4-", $"H+", (13 # 1000)%Q);
  ($"Cl-", $"HSO4-", $"Na+", (-6 # 1000)%Q); ($"Cl-", $"K+", $"Mg++", (-22 # 1000)%Q); ($"Cl-", $"K+", $"Na+", (-18 # 10000)%Q);
  ($"Cl-", $"K+", $"OH-", (-6 # 1000)%Q); ($"Cl-", $"Mg++", $"MgOH+", (28 # 1000)%Q); ($"Cl-", $"Mg++", $"Na+", (-12 # 1000)%Q);
  ($"Cl-", $"Mg++", $"SO4--", (-4 # 1000)%Q); ($"Cl-", $"Na+", $"OH-", (-6 # 1000)%Q); ($"Cl-", $"Na+", $"SO4--", (14 # 10000)%Q);
  ($"Cl-", $"Na+", $"Sr++", (-21 # 10000)%Q); ($"CO3--", $"HCO3-", $"K+", (12 # 1000)%Q); ($"CO3--", $"HCO3-", $"Na+", (2 # 1000)%Q);
  ($"CO3--", $"K+", $"Na+", (3 # 1000)%Q); ($"CO3--", $"K+", $"OH-", (-1 # 100)%Q); ($"CO3--", $"K+", $"SO4--", (-9 # 1000)%Q);
  ($"CO3--", $"Na+", $"OH-", (-17 # 1000)%Q); ($"CO3--", $"Na+", $"SO4--", (-5 # 1000)%Q); ($"H+", $"HSO4-", $"K+", (-265 # 10000)%Q);
  ($"H+", $"HSO4-", $"Mg++", (-178 # 10000)%Q); ($"H+", $"HSO4-", $"Na+", (-129 # 10000)%Q); ($"H+", $"K+", $"Br-", (-21 # 1000)%Q);
  ($"H+", $"K+", $"SO4--", (197 # 1000)%Q); ($"HCO3-", $"K+", $"Na+", (-3 # 1000)%Q); ($"HCO3-", $"Mg++", $"SO4--", (-161 # 1000)%Q);
  ($"HCO3-", $"Na+", $"SO4--", (-5 # 1000)%Q); ($"HSO4-", $"K+", $"SO4--", (-677 # 10000)%Q); ($"HSO4-", $"Mg++", $"SO4--", (-425 # 10000)%Q);
  ($"HSO4-", $"Na+", $"SO4--", (-94 # 10000)%Q); ($"K+", $"Mg++", $"SO4--", (-48 # 1000)%Q); ($"K+", $"Na+", $"SO4--", (-1 # 100)%Q);
  ($"K+", $"OH-", $"SO4--", (-5 # 100)%Q); ($"Mg++", $"Na+", $"SO4--", (-15 # 1000)%Q); ($"Na+", $"OH-", $"SO4--", (-9 # 1000)%Q)].
(* Aqueous/ActivityModelPitzerHMW.cpp:315-329. *)
Definition lambda_data : list (str * str * Q) := [
  ($"B(OH)3", $"Cl-", (91 # 1000)%Q); ($"B(OH)3", $"K+", (-14 # 100)%Q); ($"B(OH)3", $"Na+", (-97 # 1000)%Q); ($"B(OH)3", $"SO4--", (18 # 1000)%Q);
  ($"B(OH)3", $"B3O3(OH)4-", (-2 # 10)%Q); ($"CO2", $"Ca++", (183 # 1000)%Q); ($"CO2", $"Cl-", (-5 # 1000)%Q); ($"CO2", $"HSO4-", (-3 # 1000)%Q);
  ($"CO2", $"K+", (51 # 1000)%Q); ($"CO2", $"Mg++", (183 # 1000)%Q); ($"CO2", $"Na+", (85 # 1000)%Q); ($"CO2", $"SO4--", (97 # 1000)%Q)].
(* Aqueous/ActivityModelPitzerHMW.cpp:331-336. *)
Definition zeta_data : list (str * str * str * Q) := [
  ($"B(OH)3", $"Cl-", $"H+", (-102 # 10000)%Q); ($"B(OH)3", $"Na+", $"SO4--", (46 # 1000)%Q); ($"CO2", $"Na+", $"SO4--", (-15 # 1000)%Q)].
(* Aqueous/ActivityModelPitzerHMW.cpp:339-351. *)
Definition J0region1 : list Q := [
  0%Q; (706207558 # 10000000000000)%Q; (238544646 # 1000000000000)%Q; (480518193 # 1000000000000)%Q; (784985974 # 1000000000000)%Q; (11443057 # 10000000000)%Q; (155285818 # 100000000000)%Q; (200625822 # 100000000000)%Q;
  (250094831 # 100000000000)%Q; (303396197 # 100000000000)%Q; (360277406 # 100000000000)%Q; (420520037 # 100000000000)%Q; (483932706 # 100000000000)%Q; (550345931 # 100000000000)%Q; (619608287 # 100000000000)%Q; (691583456 # 100000000000)%Q;
  (766147916 # 100000000000)%Q; (843189104 # 100000000000)%Q; (922603924 # 100000000000)%Q; (100429754 # 10000000000)%Q; (108818235 # 10000000000)%Q; (117417716 # 10000000000)%Q; (126220648 # 10000000000)%Q; (135219989 # 10000000000)%Q;
  (144409153 # 10000000000)%Q; (153781966 # 10000000000)%Q; (16333263 # 1000000000)%Q; (17305568 # 1000000000)%Q; (182945965 # 10000000000)%Q; (192998614 # 10000000000)%Q; (203209017 # 10000000000)%Q; (2135728 # 100000000)%Q;
  (224085812 # 10000000000)%Q; (234744104 # 10000000000)%Q; (245543916 # 10000000000)%Q; (256481662 # 10000000000)%Q; (267553921 # 10000000000)%Q; (278757422 # 10000000000)%Q; (290089038 # 10000000000)%Q; (301545772 # 10000000000)%Q;
  (313124753 # 10000000000)%Q; (324823227 # 10000000000)%Q; (33663855 # 1000000000)%Q; (348568178 # 10000000000)%Q; (360609669 # 10000000000)%Q; (37276067 # 1000000000)%Q; (385018914 # 10000000000)%Q; (397382219 # 10000000000)%Q;
  (409848476 # 10000000000)%Q; (422415655 # 10000000000)%Q; (435081791 # 10000000000)%Q; (447844989 # 10000000000)%Q; (460703414 # 10000000000)%Q; (473655292 # 10000000000)%Q; (486698908 # 10000000000)%Q; (499832598 # 10000000000)%Q;
  (513054751 # 10000000000)%Q; (526363808 # 10000000000)%Q; (539758253 # 10000000000)%Q; (553236619 # 10000000000)%Q; (566797479 # 10000000000)%Q; (580439451 # 10000000000)%Q; (594161188 # 10000000000)%Q; (607961386 # 10000000000)%Q;
  (621838773 # 10000000000)%Q; (635792115 # 10000000000)%Q; (64982021 # 1000000000)%Q; (663921888 # 10000000000)%Q; (678096011 # 10000000000)%Q; (692341471 # 10000000000)%Q; (706657187 # 10000000000)%Q; (721042108 # 10000000000)%Q;
  (735495206 # 10000000000)%Q; (750015482 # 10000000000)%Q; (764601961 # 10000000000)%Q; (77925369 # 1000000000)%Q; (793969741 # 10000000000)%Q; (808749206 # 10000000000)%Q; (823591201 # 10000000000)%Q; (838494861 # 10000000000)%Q;
  (853459342 # 10000000000)%Q; (868483818 # 10000000000)%Q; (883567482 # 10000000000)%Q; (898709545 # 10000000000)%Q; (913909238 # 10000000000)%Q; (929165805 # 10000000000)%Q; (944478508 # 10000000000)%Q; (959846627 # 10000000000)%Q;
  (975269454 # 10000000000)%Q; (990746298 # 10000000000)%Q; (100627648 # 1000000000)%Q; (102185934 # 1000000000)%Q; (103749423 # 1000000000)%Q; (105318051 # 1000000000)%Q; (106891756 # 1000000000)%Q; (108470476 # 1000000000)%Q;
  (110054152 # 1000000000)%Q; (111642726 # 1000000000)%Q; (113236139 # 1000000000)%Q; (114834335 # 1000000000)%Q; (116437258 # 1000000000)%Q].
(* Aqueous/ActivityModelPitzerHMW.cpp:354-365. *)
Definition J0region2 : list Q := [
  (116437258 # 1000000000)%Q; (132715063 # 1000000000)%Q; (149411766 # 1000000000)%Q; (166486062 # 1000000000)%Q; (183902904 # 1000000000)%Q; (20163224 # 100000000)%Q; (219648056 # 1000000000)%Q; (237927656 # 1000000000)%Q;
  (25645109 # 100000000)%Q; (275200712 # 1000000000)%Q; (294160824 # 1000000000)%Q; (313317387 # 1000000000)%Q; (332657787 # 1000000000)%Q; (35217064 # 100000000)%Q; (371845632 # 1000000000)%Q; (391673386 # 1000000000)%Q;
  (411645345 # 1000000000)%Q; (431753678 # 1000000000)%Q; (451991199 # 1000000000)%Q; (472351292 # 1000000000)%Q; (492827852 # 1000000000)%Q; (513415235 # 1000000000)%Q; (534108209 # 1000000000)%Q; (554901912 # 1000000000)%Q;
  (57579182 # 100000000)%Q; (596773717 # 1000000000)%Q; (61784366 # 100000000)%Q; (638997965 # 1000000000)%Q; (660233175 # 1000000000)%Q; (681546049 # 1000000000)%Q; (702933538 # 1000000000)%Q; (724392774 # 1000000000)%Q;
  (745921053 # 1000000000)%Q; (767515825 # 1000000000)%Q; (78917468 # 100000000)%Q; (810895338 # 1000000000)%Q; (832675641 # 1000000000)%Q; (854513543 # 1000000000)%Q; (876407104 # 1000000000)%Q; (898354481 # 1000000000)%Q;
  (92035392 # 100000000)%Q; (942403756 # 1000000000)%Q; (964502399 # 1000000000)%Q; (986648338 # 1000000000)%Q; (100884013 # 100000000)%Q; (103107639 # 100000000)%Q; (105335582 # 100000000)%Q; (107567714 # 100000000)%Q;
  (109803916 # 100000000)%Q; (112044072 # 100000000)%Q; (114288073 # 100000000)%Q; (116535811 # 100000000)%Q; (118787186 # 100000000)%Q; (121042101 # 100000000)%Q; (123300461 # 100000000)%Q; (125562177 # 100000000)%Q;
  (127827163 # 100000000)%Q; (130095335 # 100000000)%Q; (132366614 # 100000000)%Q; (134640922 # 100000000)%Q; (136918186 # 100000000)%Q; (139198333 # 100000000)%Q; (141481295 # 100000000)%Q; (143767006 # 100000000)%Q;
  (146055401 # 100000000)%Q; (148346418 # 100000000)%Q; (150639998 # 100000000)%Q; (152936082 # 100000000)%Q; (155234615 # 100000000)%Q; (157535543 # 100000000)%Q; (159838813 # 100000000)%Q; (162144375 # 100000000)%Q;
  (164452179 # 100000000)%Q; (166762179 # 100000000)%Q; (169074329 # 100000000)%Q; (171388583 # 100000000)%Q; (173704899 # 100000000)%Q; (176023235 # 100000000)%Q; (17834355 # 10000000)%Q; (180665805 # 100000000)%Q;
  (182989961 # 100000000)%Q; (185315981 # 100000000)%Q; (18764383 # 10000000)%Q; (189973472 # 100000000)%Q; (192304873 # 100000000)%Q; (194638 # 100000)%Q; (19697282 # 10000000)%Q; (199309303 # 100000000)%Q;
  (201647419 # 100000000)%Q; (203987136 # 100000000)%Q; (206328427 # 100000000)%Q].
(* Aqueous/ActivityModelPitzerHMW.cpp:368-379. *)
Definition J0region3 : list Q := [
  (206328427 # 100000000)%Q; (229822044 # 100000000)%Q; (253446209 # 100000000)%Q; (27718168 # 10000000)%Q; (301013128 # 100000000)%Q; (32492814 # 10000000)%Q; (348916529 # 100000000)%Q; (372969829 # 100000000)%Q;
  (397080934 # 100000000)%Q; (421243822 # 100000000)%Q; (445453343 # 100000000)%Q; (469705062 # 100000000)%Q; (493995136 # 100000000)%Q; (518320209 # 100000000)%Q; (542677335 # 100000000)%Q; (567063917 # 100000000)%Q;
  (591477653 # 100000000)%Q; (615916491 # 100000000)%Q; (640378598 # 100000000)%Q; (664862328 # 100000000)%Q; (6893662 # 1000000)%Q; (713888874 # 100000000)%Q; (738429135 # 100000000)%Q; (762985879 # 100000000)%Q;
  (7875581 # 1000000)%Q; (812144876 # 100000000)%Q; (836745365 # 100000000)%Q; (861358792 # 100000000)%Q; (885984443 # 100000000)%Q; (910621661 # 100000000)%Q; (935269838 # 100000000)%Q; (959928411 # 100000000)%Q;
  (984596857 # 100000000)%Q; (100927469 # 10000000)%Q; (103396146 # 10000000)%Q; (105865675 # 10000000)%Q; (108336015 # 10000000)%Q; (110807131 # 10000000)%Q; (113278988 # 10000000)%Q; (115751554 # 10000000)%Q;
  (118224798 # 10000000)%Q; (120698692 # 10000000)%Q; (12317321 # 1000000)%Q; (125648325 # 10000000)%Q; (128124014 # 10000000)%Q; (130600255 # 10000000)%Q; (133077027 # 10000000)%Q; (135554308 # 10000000)%Q;
  (138032082 # 10000000)%Q; (140510328 # 10000000)%Q; (142989031 # 10000000)%Q; (145468174 # 10000000)%Q; (147947742 # 10000000)%Q; (150427719 # 10000000)%Q; (152908093 # 10000000)%Q; (15538885 # 1000000)%Q;
  (157869977 # 10000000)%Q; (160351462 # 10000000)%Q; (162833294 # 10000000)%Q; (165315461 # 10000000)%Q; (167797954 # 10000000)%Q; (170280762 # 10000000)%Q; (172763875 # 10000000)%Q; (175247285 # 10000000)%Q;
  (177730983 # 10000000)%Q; (18021496 # 1000000)%Q; (182699208 # 10000000)%Q; (185183719 # 10000000)%Q; (187668486 # 10000000)%Q; (190153502 # 10000000)%Q; (19263876 # 1000000)%Q; (195124254 # 10000000)%Q;
  (197609976 # 10000000)%Q; (200095922 # 10000000)%Q; (202582084 # 10000000)%Q; (205068458 # 10000000)%Q; (207555038 # 10000000)%Q; (210041819 # 10000000)%Q; (212528795 # 10000000)%Q; (215015962 # 10000000)%Q;
  (217503315 # 10000000)%Q; (21999085 # 1000000)%Q; (222478561 # 10000000)%Q; (224966446 # 10000000)%Q; (227454499 # 10000000)%Q; (229942718 # 10000000)%Q; (232431097 # 10000000)%Q; (234919634 # 10000000)%Q;
  (237408324 # 10000000)%Q; (239897164 # 10000000)%Q; (242386152 # 10000000)%Q].
(* Aqueous/ActivityModelPitzerHMW.cpp:382-385. *)
Definition J0region4 : list Q := [
  (242386152 # 10000000)%Q; (491709893 # 10000000)%Q; (74138819 # 1000000)%Q; (991190695 # 10000000)%Q; (124105388 # 1000000)%Q; (149095205 # 1000000)%Q; (174087256 # 1000000)%Q; (199080833 # 1000000)%Q;
  (22407551 # 100000)%Q; (249071007 # 1000000)%Q].
(* Aqueous/ActivityModelPitzerHMW.cpp:388-391. *)
Definition J0region5 : list Q := [
  (249071007 # 1000000)%Q; (499046818 # 1000000)%Q; (749036364 # 1000000)%Q; (999030282 # 1000000)%Q; (124902622 # 100000)%Q; (149902328 # 100000)%Q; (174902104 # 100000)%Q; (199901926 # 100000)%Q;
  (22490178 # 10000)%Q; (249901659 # 100000)%Q].
(* Aqueous/ActivityModelPitzerHMW.cpp:394-406. *)
Definition J1region1 : list Q := [
  0%Q; (125151744 # 1000000000000)%Q; (414749318 # 1000000000000)%Q; (824176731 # 1000000000000)%Q; (133185071 # 100000000000)%Q; (192376087 # 100000000000)%Q; (258976962 # 100000000000)%Q; (332207863 # 100000000000)%Q;
  (411444419 # 100000000000)%Q; (496172312 # 100000000000)%Q; (585958733 # 100000000000)%Q; (680433336 # 100000000000)%Q; (779274934 # 100000000000)%Q; (882201875 # 100000000000)%Q; (988964869 # 100000000000)%Q; (109934151 # 10000000000)%Q;
  (121313201 # 10000000000)%Q; (133015585 # 10000000000)%Q; (1450249 # 100000000)%Q; (157326178 # 10000000000)%Q; (169905698 # 10000000000)%Q; (182750838 # 10000000000)%Q; (195849943 # 10000000000)%Q; (209192222 # 10000000000)%Q;
  (222767652 # 10000000000)%Q; (236566899 # 10000000000)%Q; (250581251 # 10000000000)%Q; (264802559 # 10000000000)%Q; (27922318 # 1000000000)%Q; (293835939 # 10000000000)%Q; (308634081 # 10000000000)%Q; (32361124 # 1000000000)%Q;
  (338761406 # 10000000000)%Q; (354078895 # 10000000000)%Q; (369558327 # 10000000000)%Q; (3851946 # 100000000)%Q; (400982869 # 10000000000)%Q; (416918532 # 10000000000)%Q; (432997208 # 10000000000)%Q; (449214724 # 10000000000)%Q;
  (465567101 # 10000000000)%Q; (482050541 # 10000000000)%Q; (498661416 # 10000000000)%Q; (515396256 # 10000000000)%Q; (532251741 # 10000000000)%Q; (54922469 # 1000000000)%Q; (566312055 # 10000000000)%Q; (58351091 # 1000000000)%Q;
  (600818448 # 10000000000)%Q; (618231971 # 10000000000)%Q; (635748887 # 10000000000)%Q; (653366701 # 10000000000)%Q; (671083013 # 10000000000)%Q; (68889551 # 1000000000)%Q; (706801965 # 10000000000)%Q; (724800229 # 10000000000)%Q;
  (742888229 # 10000000000)%Q; (761063965 # 10000000000)%Q; (779325506 # 10000000000)%Q; (797670984 # 10000000000)%Q; (816098597 # 10000000000)%Q; (834606598 # 10000000000)%Q; (853193299 # 10000000000)%Q; (871857068 # 10000000000)%Q;
  (890596322 # 10000000000)%Q; (909409528 # 10000000000)%Q; (9282952 # 100000000)%Q; (9472519 # 100000000)%Q; (966278229 # 10000000000)%Q; (985372835 # 10000000000)%Q; (10045344 # 100000000)%Q; (102376165 # 1000000000)%Q;
  (104305334 # 1000000000)%Q; (106240827 # 1000000000)%Q; (108182528 # 1000000000)%Q; (110130321 # 1000000000)%Q; (112084096 # 1000000000)%Q; (114043746 # 1000000000)%Q; (116009167 # 1000000000)%Q; (117980255 # 1000000000)%Q;
  (119956912 # 1000000000)%Q; (121939042 # 1000000000)%Q; (123926549 # 1000000000)%Q; (125919343 # 1000000000)%Q; (127917334 # 1000000000)%Q; (129920434 # 1000000000)%Q; (13192856 # 100000000)%Q; (133941627 # 1000000000)%Q;
  (135959556 # 1000000000)%Q; (137982267 # 1000000000)%Q; (140009683 # 1000000000)%Q; (14204173 # 100000000)%Q; (144078334 # 1000000000)%Q; (146119422 # 1000000000)%Q; (148164927 # 1000000000)%Q; (150214778 # 1000000000)%Q;
  (152268909 # 1000000000)%Q; (154327256 # 1000000000)%Q; (156389753 # 1000000000)%Q; (158456339 # 1000000000)%Q; (160526953 # 1000000000)%Q].
(* Aqueous/ActivityModelPitzerHMW.cpp:409-420. *)
Definition J1region2 : list Q := [
  (160526953 # 1000000000)%Q; (181442105 # 1000000000)%Q; (202701762 # 1000000000)%Q; (224262453 # 1000000000)%Q; (246088272 # 1000000000)%Q; (268149211 # 1000000000)%Q; (290419926 # 1000000000)%Q; (312878818 # 1000000000)%Q;
  (335507329 # 1000000000)%Q; (358289398 # 1000000000)%Q; (381211036 # 1000000000)%Q; (404259985 # 1000000000)%Q; (427425447 # 1000000000)%Q; (450697864 # 1000000000)%Q; (474068736 # 1000000000)%Q; (497530475 # 1000000000)%Q;
  (521076279 # 1000000000)%Q; (54470003 # 100000000)%Q; (568396207 # 1000000000)%Q; (592159812 # 1000000000)%Q; (615986308 # 1000000000)%Q; (639871564 # 1000000000)%Q; (663811811 # 1000000000)%Q; (687803601 # 1000000000)%Q;
  (711843772 # 1000000000)%Q; (73592942 # 100000000)%Q; (76005787 # 100000000)%Q; (784226655 # 1000000000)%Q; (808433496 # 1000000000)%Q; (832676281 # 1000000000)%Q; (856953056 # 1000000000)%Q; (881262001 # 1000000000)%Q;
  (905601427 # 1000000000)%Q; (92996976 # 100000000)%Q; (954365532 # 1000000000)%Q; (97878737 # 100000000)%Q; (100323399 # 100000000)%Q; (10277042 # 10000000)%Q; (105219687 # 100000000)%Q; (107671094 # 100000000)%Q;
  (110124543 # 100000000)%Q; (112579939 # 100000000)%Q; (115037195 # 100000000)%Q; (117496229 # 100000000)%Q; (119956963 # 100000000)%Q; (122419322 # 100000000)%Q; (124883238 # 100000000)%Q; (127348644 # 100000000)%Q;
  (129815479 # 100000000)%Q; (132283683 # 100000000)%Q; (134753201 # 100000000)%Q; (137223979 # 100000000)%Q; (139695969 # 100000000)%Q; (14216912 # 10000000)%Q; (14464339 # 10000000)%Q; (147118733 # 100000000)%Q;
  (14959511 # 10000000)%Q; (152072481 # 100000000)%Q; (154550809 # 100000000)%Q; (157030058 # 100000000)%Q; (159510196 # 100000000)%Q; (161991188 # 100000000)%Q; (164473005 # 100000000)%Q; (166955617 # 100000000)%Q;
  (169438996 # 100000000)%Q; (171923115 # 100000000)%Q; (174407948 # 100000000)%Q; (176893471 # 100000000)%Q; (17937966 # 10000000)%Q; (181866492 # 100000000)%Q; (184353946 # 100000000)%Q; (186842001 # 100000000)%Q;
  (189330637 # 100000000)%Q; (191819835 # 100000000)%Q; (194309576 # 100000000)%Q; (196799843 # 100000000)%Q; (199290619 # 100000000)%Q; (201781888 # 100000000)%Q; (204273633 # 100000000)%Q; (206765841 # 100000000)%Q;
  (209258496 # 100000000)%Q; (211751584 # 100000000)%Q; (214245093 # 100000000)%Q; (216739009 # 100000000)%Q; (219233319 # 100000000)%Q; (221728012 # 100000000)%Q; (224223076 # 100000000)%Q; (2267185 # 1000000)%Q;
  (229214274 # 100000000)%Q; (231710386 # 100000000)%Q; (234206827 # 100000000)%Q].
(* Aqueous/ActivityModelPitzerHMW.cpp:423-434. *)
Definition J1region3 : list Q := [
  (234206827 # 100000000)%Q; (259187348 # 100000000)%Q; (284191919 # 100000000)%Q; (309214678 # 100000000)%Q; (334251316 # 100000000)%Q; (359298607 # 100000000)%Q; (384354101 # 100000000)%Q; (409415916 # 100000000)%Q;
  (434482586 # 100000000)%Q; (459552961 # 100000000)%Q; (484626133 # 100000000)%Q; (509701375 # 100000000)%Q; (534778108 # 100000000)%Q; (559855865 # 100000000)%Q; (584934266 # 100000000)%Q; (610013007 # 100000000)%Q;
  (635091839 # 100000000)%Q; (660170559 # 100000000)%Q; (685249003 # 100000000)%Q; (710327038 # 100000000)%Q; (735404555 # 100000000)%Q; (760481466 # 100000000)%Q; (785557702 # 100000000)%Q; (810633207 # 100000000)%Q;
  (835707936 # 100000000)%Q; (860781855 # 100000000)%Q; (885854938 # 100000000)%Q; (910927165 # 100000000)%Q; (935998525 # 100000000)%Q; (961069006 # 100000000)%Q; (986138606 # 100000000)%Q; (101120732 # 10000000)%Q;
  (103627516 # 10000000)%Q; (106134211 # 10000000)%Q; (10864082 # 1000000)%Q; (111147342 # 10000000)%Q; (113653778 # 10000000)%Q; (116160129 # 10000000)%Q; (118666397 # 10000000)%Q; (121172583 # 10000000)%Q;
  (123678687 # 10000000)%Q; (126184711 # 10000000)%Q; (128690656 # 10000000)%Q; (131196523 # 10000000)%Q; (133702314 # 10000000)%Q; (13620803 # 1000000)%Q; (138713673 # 10000000)%Q; (141219243 # 10000000)%Q;
  (143724742 # 10000000)%Q; (146230171 # 10000000)%Q; (148735532 # 10000000)%Q; (151240825 # 10000000)%Q; (153746053 # 10000000)%Q; (156251215 # 10000000)%Q; (158756314 # 10000000)%Q; (16126135 # 1000000)%Q;
  (163766325 # 10000000)%Q; (166271241 # 10000000)%Q; (168776097 # 10000000)%Q; (171280895 # 10000000)%Q; (173785636 # 10000000)%Q; (176290322 # 10000000)%Q; (178794953 # 10000000)%Q; (18129953 # 1000000)%Q;
  (183804055 # 10000000)%Q; (186308528 # 10000000)%Q; (18881295 # 1000000)%Q; (191317322 # 10000000)%Q; (193821645 # 10000000)%Q; (19632592 # 1000000)%Q; (198830149 # 10000000)%Q; (20133433 # 1000000)%Q;
  (203838467 # 10000000)%Q; (206342558 # 10000000)%Q; (208846606 # 10000000)%Q; (211350611 # 10000000)%Q; (213854573 # 10000000)%Q; (216358494 # 10000000)%Q; (218862373 # 10000000)%Q; (221366213 # 10000000)%Q;
  (223870013 # 10000000)%Q; (226373774 # 10000000)%Q; (228877497 # 10000000)%Q; (231381183 # 10000000)%Q; (233884832 # 10000000)%Q; (236388444 # 10000000)%Q; (238892021 # 10000000)%Q; (241395563 # 10000000)%Q;
  (24389907 # 1000000)%Q; (246402544 # 10000000)%Q; (248905984 # 10000000)%Q].
(* Aqueous/ActivityModelPitzerHMW.cpp:437-440. *)
Definition J1region4 : list Q := [
  (248905984 # 10000000)%Q; (499141212 # 10000000)%Q; (749270387 # 10000000)%Q; (999355618 # 10000000)%Q; (124941747 # 1000000)%Q; (149946507 # 1000000)%Q; (17495032 # 100000)%Q; (199953466 # 1000000)%Q;
  (224956118 # 1000000)%Q; (249958395 # 1000000)%Q].
(* Aqueous/ActivityModelPitzerHMW.cpp:443-446. *)
Definition J1region5 : list Q := [
  (249958395 # 1000000)%Q; (499971193 # 1000000)%Q; (749977057 # 1000000)%Q; (999980578 # 1000000)%Q; (124998298 # 100000)%Q; (149998474 # 100000)%Q; (174998611 # 100000)%Q; (19999872 # 10000)%Q;
  (22499881 # 10000)%Q; (249998886 # 100000)%Q].
(* The tables together; only the built-in ones below are ever used by the code. *)
Record PitzerData := mkData {
  d_beta0 : list (str * str * list Q); d_beta1 : list (str * str * list Q); d_beta2 : list (str * str * list Q); d_Cphi : list (str * str * list Q);
  d_theta : list (str * str * Q); d_psi : list (str * str * str * Q); d_lambda : list (str * str * Q); d_zeta : list (str * str * str * Q) }.
Definition hmw : PitzerData := mkData beta0_data beta1_data beta2_data Cphi_data theta_data psi_data lambda_data zeta_data.

(* ---- Interaction parameters ---- *)
(* Aqueous/ActivityModelPitzerHMW.cpp:496-511: a function of temperature. *)
Definition saltFunction (coeffs : list Q) : outcome (R -> R) :=
  let Tr := 298.15 in
  match map Q2R coeffs with
  | [c0] => Ok (fun _ => c0)
  | [c0; c1] => Ok (fun T => c0 + c1 * (T - Tr))
  | [c0; c1; c2; c3; c4] => Ok (fun T => c0 + c1 * (1 / T - 1 / Tr) + c2 * ln (T / Tr) + c3 * (T - Tr) + c4 * (T * T - Tr * Tr))
  | _ => Err
  end.
(* Aqueous/ActivityModelPitzerHMW.cpp:487-515.  The formulas of a line are
   converted from text when the line is reached; in the code, when the program
   starts. *)
Fixpoint saltParam (data : list (str * str * list Q)) (cation anion : ChemicalFormula) : outcome (R -> R) :=
  match data with
  | [] => Ok (fun _ => 0)
  | (cation0, anion0, coeffs) :: rest =>
    bind (mkChemicalFormula cation0) (fun c => bind (mkChemicalFormula anion0) (fun a =>
    if equivalent cation c && equivalent anion a then saltFunction coeffs else saltParam rest cation anion))
  end.
(* Aqueous/ActivityModelPitzerHMW.cpp:517-546. *)
Definition saltTable (data : list (str * str * list Q)) (cations anions : list ChemicalFormula) : outcome (nat -> nat -> R -> R) :=
  omap (fun rows i j => nth j (nth i rows []) (fun _ => 0)) (mapM (fun c => mapM (fun a => saltParam data c a) anions) cations).
(* Core/ChemicalFormula.cpp:147-150: formulas are equal when written the same. *)
Definition same_text (texts : list str) (formulas : list ChemicalFormula) : bool := M_Chem.identical str_eqb (map cf_str formulas) texts.
(* Aqueous/ActivityModelPitzerHMW.cpp:548-564 and 584-600: [theta] and [lambda]. *)
Fixpoint pairParam (data : list (str * str * Q)) (f g : ChemicalFormula) : R :=
  match data with
  | [] => 0
  | (x, y, c) :: rest => if same_text [x; y] [f; g] then Q2R c else pairParam rest f g
  end.
(* Aqueous/ActivityModelPitzerHMW.cpp:566-582 and 602-618: [psi] and [zeta]. *)
Fixpoint tripletParam (data : list (str * str * str * Q)) (f g h : ChemicalFormula) : R :=
  match data with
  | [] => 0
  | (x, y, z, c) :: rest => if same_text [x; y; z] [f; g; h] then Q2R c else tripletParam rest f g h
  end.

(* Aqueous/ActivityModelPitzerHMW.cpp:666-674.  Index(v) is the integer part of
   v, for v not negative. *)
Definition interpolateJ (x x0 x1 : R) (ypoints : list Q) : outcome R :=
  let N := length ypoints in
  let dx := (x1 - x0) / INR (N - 1) in
  let i := Z.to_nat (Int_part ((x - x0) / dx)) in
  if Nat.ltb N i then Ok (Q2R (last ypoints 0%Q))
  else match nth_error ypoints i with Some y => Ok (Q2R y) | None => UB end.
Definition within (a b x : R) : bool := if Rle_dec a x then if Rle_dec x b then true else false else false.
(* Aqueous/ActivityModelPitzerHMW.cpp:676-690. *)
Definition J0 (x : R) : outcome R :=
  if within 0 1 x then interpolateJ x 0 1 J0region1
  else if within 1 10 x then interpolateJ x 1 10 J0region2
  else if within 10 100 x then interpolateJ x 10 100 J0region3
  else if within 100 1000 x then interpolateJ x 100 1000 J0region4
  else if within 1000 10000 x then interpolateJ x 1000 10000 J0region5
  else Err.
(* Aqueous/ActivityModelPitzerHMW.cpp:692-706. *)
Definition J1 (x : R) : outcome R :=
  if within 0 1 x then interpolateJ x 0 1 J1region1
  else if within 1 10 x then interpolateJ x 1 10 J1region2
  else if within 10 100 x then interpolateJ x 10 100 J1region3
  else if within 100 1000 x then interpolateJ x 100 1000 J1region4
  else if within 1000 10000 x then interpolateJ x 1000 10000 J1region5
  else Err.

(* Aqueous/ActivityModelPitzerHMW.cpp:708-751 without Aphi, whose interpolation
   is an argument of the model. *)
Record PitzerParams := mkPitzer {
  pz_neutrals : list nat; pz_charged : list nat; pz_cations : list nat; pz_anions : list nat; pz_z : nat -> R;
  pz_beta0 : nat -> nat -> R -> R; pz_beta1 : nat -> nat -> R -> R; pz_beta2 : nat -> nat -> R -> R; pz_Cphi : nat -> nat -> R -> R;
  pz_theta_cc : nat -> nat -> R; pz_theta_aa : nat -> nat -> R;
  pz_psi_cca : nat -> nat -> nat -> R; pz_psi_aac : nat -> nat -> nat -> R;
  pz_lambda_nc : nat -> nat -> R; pz_lambda_na : nat -> nat -> R; pz_zeta : nat -> nat -> nat -> R }.
(* Aqueous/ActivityModelPitzerHMW.cpp:756-790 and 620-664. *)
Definition pitzerParams (data : PitzerData) (mx : Mixture) : outcome PitzerParams :=
  let formulas := map (fun i => formula (species_at (mx_species mx) i)) in
  let neutrals := formulas (mx_neutral mx) in let cations := formulas (mx_cations mx) in let anions := formulas (mx_anions mx) in
  let at_ (l : list ChemicalFormula) (i : nat) := nth i l (formula noSpecies) in
  bind (saltTable (d_beta0 data) cations anions) (fun beta0 =>
  bind (saltTable (d_beta1 data) cations anions) (fun beta1 =>
  bind (saltTable (d_beta2 data) cations anions) (fun beta2 =>
  bind (saltTable (d_Cphi data) cations anions) (fun Cphi =>
  Ok (mkPitzer (mx_neutral mx) (mx_charged mx) (mx_cations mx) (mx_anions mx) (charge_at (mx_species mx)) beta0 beta1 beta2 Cphi
    (fun i j => pairParam (d_theta data) (at_ cations i) (at_ cations j))
    (fun i j => pairParam (d_theta data) (at_ anions i) (at_ anions j))
    (fun i j k => tripletParam (d_psi data) (at_ cations i) (at_ cations j) (at_ anions k))
    (fun i j k => tripletParam (d_psi data) (at_ anions i) (at_ anions j) (at_ cations k))
    (fun i j => pairParam (d_lambda data) (at_ neutrals i) (at_ cations j))
    (fun i j => pairParam (d_lambda data) (at_ neutrals i) (at_ anions j))
    (fun i j k => tripletParam (d_zeta data) (at_ neutrals i) (at_ cations j) (at_ anions k))))))).

(* ---- Sums that may fail ---- *)
(* A loop that adds f 0, ..., f (n - 1). *)
Fixpoint sumM (n : nat) (f : nat -> outcome R) : outcome R :=
  match n with O => Ok 0 | S k => bind (sumM k f) (fun s => omap (fun v => s + v) (f k)) end.
(* for(auto i = 0; i < n - 1; ++i) for(auto j = i + 1; j < n; ++j), where n is
   unsigned: without elements n - 1 is the largest number, and i, an int,
   overflows. *)
Definition pairsM (n : nat) (f : nat -> nat -> outcome R) : outcome R :=
  match n with
  | O => UB
  | S k => sumM k (fun i => sumM (n - S i) (fun d => f i (S i + d)%nat))
  end.

(* ---- Functions of the ionic strength ---- *)
(* Aqueous/ActivityModelPitzerHMW.cpp:799-816. *)
Definition thetaE (Aphi I zi zj : R) : outcome R :=
  if Req_EM_T zi zj then Ok 0 else
  let sqrtI := sqrt I in
  bind (J0 (6 * zi * zj * Aphi * sqrtI)) (fun J0ij =>
  bind (J0 (6 * zi * zi * Aphi * sqrtI)) (fun J0ii =>
  bind (J0 (6 * zj * zj * Aphi * sqrtI)) (fun J0jj =>
  Ok (zi * zj / (4 * I) * (J0ij - 0.5 * J0ii - 0.5 * J0jj))))).
(* Aqueous/ActivityModelPitzerHMW.cpp:818-835. *)
Definition thetaE_prime (Aphi I zi zj : R) : outcome R :=
  if Req_EM_T zi zj then Ok 0 else
  let sqrtI := sqrt I in
  bind (J1 (6 * zi * zj * Aphi * sqrtI)) (fun J1ij =>
  bind (J1 (6 * zi * zi * Aphi * sqrtI)) (fun J1ii =>
  bind (J1 (6 * zj * zj * Aphi * sqrtI)) (fun J1jj =>
  bind (thetaE Aphi I zi zj) (fun tE =>
  Ok (zi * zj / (8 * I * I) * (J1ij - 0.5 * J1ii - 0.5 * J1jj) - tE / I))))).
(* Aqueous/ActivityModelPitzerHMW.cpp:901-909. *)
Definition pz_g (x : R) : R := 2 * (1 - (1 + x) * exp (- x)) / (x * x).
Definition pz_gprime (x : R) : R := -2 * (1 - (1 + x + 0.5 * x * x) * exp (- x)) / (x * x).
(* Aqueous/ActivityModelPitzerHMW.cpp:911-913. *)
Definition pz_alpha : R := 2.
Definition pz_alpha1 : R := 1.4.
Definition pz_alpha2 : R := 12.
Definition both_two (zc za : R) : bool := if Req_EM_T (Rabs zc) 2 then if Req_EM_T (Rabs za) 2 then true else false else false.
(* Aqueous/ActivityModelPitzerHMW.cpp:915-930, 932-947 and 949-963. *)
Definition B_phi (I zc za beta0 beta1 beta2 : R) : R :=
  if both_two zc za then beta0 + beta1 * exp (- pz_alpha1 * sqrt I) + beta2 * exp (- pz_alpha2 * sqrt I)
  else beta0 + beta1 * exp (- pz_alpha * sqrt I).
Definition B_ (I zc za beta0 beta1 beta2 : R) : R :=
  if both_two zc za then beta0 + beta1 * pz_g (pz_alpha1 * sqrt I) + beta2 * pz_g (pz_alpha2 * sqrt I)
  else beta0 + beta1 * pz_g (pz_alpha * sqrt I).
Definition B_prime (I zc za beta1 beta2 : R) : R :=
  if both_two zc za then beta1 * pz_gprime (pz_alpha1 * sqrt I) / I + beta2 * pz_gprime (pz_alpha2 * sqrt I) / I
  else beta1 * pz_gprime (pz_alpha * sqrt I) / I.
(* Aqueous/ActivityModelPitzerHMW.cpp:965-972. *)
Definition C_ (zc za Cphi : R) : R := 0.5 * Cphi / sqrt (Rabs (zc * za)).

(* ---- Activity coefficients ---- *)
Section State.
Variables (pz : PitzerParams) (Aphi I T : R) (m : nat -> R).
Let nc := length (pz_cations pz).
Let na := length (pz_anions pz).
Let nn := length (pz_neutrals pz).
Definition m_c (c : nat) : R := m (nth c (pz_cations pz) O).
Definition m_a (a : nat) : R := m (nth a (pz_anions pz) O).
Definition m_n (n : nat) : R := m (nth n (pz_neutrals pz) O).
Definition z_c (c : nat) : R := pz_z pz (nth c (pz_cations pz) O).
Definition z_a (a : nat) : R := pz_z pz (nth a (pz_anions pz) O).
Definition Bphi_ca (c a : nat) : R := B_phi I (z_c c) (z_a a) (pz_beta0 pz c a T) (pz_beta1 pz c a T) (pz_beta2 pz c a T).
Definition B_ca (c a : nat) : R := B_ I (z_c c) (z_a a) (pz_beta0 pz c a T) (pz_beta1 pz c a T) (pz_beta2 pz c a T).
Definition Bprime_ca (c a : nat) : R := B_prime I (z_c c) (z_a a) (pz_beta1 pz c a T) (pz_beta2 pz c a T).
Definition C_ca (c a : nat) : R := C_ (z_c c) (z_a a) (pz_Cphi pz c a T).
(* Aqueous/ActivityModelPitzerHMW.cpp:837-899. *)
Definition Phi_cc (i j : nat) : outcome R := omap (fun e => pz_theta_cc pz i j + e) (thetaE Aphi I (z_c i) (z_c j)).
Definition Phi_aa (i j : nat) : outcome R := omap (fun e => pz_theta_aa pz i j + e) (thetaE Aphi I (z_a i) (z_a j)).
Definition Phi_phi_cc (i j : nat) : outcome R :=
  bind (thetaE Aphi I (z_c i) (z_c j)) (fun e => omap (fun d => pz_theta_cc pz i j + e + I * d) (thetaE_prime Aphi I (z_c i) (z_c j))).
Definition Phi_phi_aa (i j : nat) : outcome R :=
  bind (thetaE Aphi I (z_a i) (z_a j)) (fun e => omap (fun d => pz_theta_aa pz i j + e + I * d) (thetaE_prime Aphi I (z_a i) (z_a j))).
Definition Phi_prime_cc (i j : nat) : outcome R := thetaE_prime Aphi I (z_c i) (z_c j).
Definition Phi_prime_aa (i j : nat) : outcome R := thetaE_prime Aphi I (z_a i) (z_a j).
(* Aqueous/ActivityModelPitzerHMW.cpp:974-1017. *)
Definition F_limit : R := - Aphi * (sqrt I / (1 + 1.2 * sqrt I) + 2 / 1.2 * ln (1 + 1.2 * sqrt I)).
Definition computeF : outcome R :=
  bind (pairsM nc (fun i j => omap (fun v => m_c i * m_c j * v) (Phi_prime_cc i j))) (fun scc =>
  bind (pairsM na (fun i j => omap (fun v => m_a i * m_a j * v) (Phi_prime_aa i j))) (fun saa =>
  Ok (F_limit + Sum nc (fun c => Sum na (fun a => m_c c * m_a a * Bprime_ca c a)) + scc + saa))).
(* Aqueous/ActivityModelPitzerHMW.cpp:1019-1024. *)
Definition computeZ : R := Sum (length (pz_charged pz)) (fun j => m (nth j (pz_charged pz) O) * Rabs (pz_z pz (nth j (pz_charged pz) O))).
(* Aqueous/ActivityModelPitzerHMW.cpp:1030-1116. *)
Definition lnCation (M : nat) : outcome R :=
  bind computeF (fun F => let Z := computeZ in
  bind (sumM nc (fun c => omap (fun Phi => m_c c * (2 * Phi + Sum na (fun a => m_a a * pz_psi_cca pz M c a))) (Phi_cc M c))) (fun scc =>
  bind (pairsM na (fun i j => Ok (m_a i * m_a j * pz_psi_aac pz i j M))) (fun saa =>
  Ok (Sum na (fun a => m_a a * (2 * B_ca M a + Z * C_ca M a)) + scc + saa
      + Sum nc (fun c => Sum na (fun a => Rabs (z_c M) * m_c c * m_a a * C_ca c a))
      + Sum nn (fun n => 2 * m_n n * pz_lambda_nc pz n M)
      + z_c M * z_c M * F)))).
(* Aqueous/ActivityModelPitzerHMW.cpp:1122-1208. *)
Definition lnAnion (X : nat) : outcome R :=
  bind computeF (fun F => let Z := computeZ in
  bind (sumM na (fun a => omap (fun Phi => m_a a * (2 * Phi + Sum nc (fun c => m_c c * pz_psi_aac pz X a c))) (Phi_aa X a))) (fun saa =>
  bind (pairsM nc (fun i j => Ok (m_c i * m_c j * pz_psi_cca pz i j X))) (fun scc =>
  Ok (Sum nc (fun c => m_c c * (2 * B_ca c X + Z * C_ca c X)) + saa + scc
      + Sum nc (fun c => Sum na (fun a => Rabs (z_a X) * m_c c * m_a a * C_ca c a))
      + Sum nn (fun n => 2 * m_n n * pz_lambda_na pz n X)
      + z_a X * z_a X * F)))).
(* Aqueous/ActivityModelPitzerHMW.cpp:1338-1371. *)
Definition lnNeutral (N : nat) : R :=
  Sum nc (fun c => 2 * m_c c * pz_lambda_nc pz N c) + Sum na (fun a => 2 * m_a a * pz_lambda_na pz N a)
  + Sum nc (fun c => Sum na (fun a => m_c c * m_a a * pz_zeta pz N c a)).
(* Aqueous/ActivityModelPitzerHMW.cpp:1214-1332; [total] is the sum of the
   molalities of the solutes. *)
Definition lnWater (total : R) : outcome R :=
  let Z := computeZ in
  bind (pairsM nc (fun i j => omap (fun Phi => m_c i * m_c j * (Phi + Sum na (fun a => m_a a * pz_psi_cca pz i j a))) (Phi_phi_cc i j))) (fun scc =>
  bind (pairsM na (fun i j => omap (fun Phi => m_a i * m_a j * (Phi + Sum nc (fun c => m_c c * pz_psi_aac pz i j c))) (Phi_phi_aa i j))) (fun saa =>
  let phi := - Aphi * I * sqrt I / (1 + 1.2 * sqrt I)
    + Sum nc (fun c => Sum na (fun a => m_c c * m_a a * (Bphi_ca c a + Z * C_ca c a))) + scc + saa
    + Sum nn (fun n => Sum nc (fun c => m_n n * m_c c * pz_lambda_nc pz n c))
    + Sum nn (fun n => Sum na (fun a => m_n n * m_a a * pz_lambda_na pz n a))
    + Sum nn (fun n => Sum nc (fun c => Sum na (fun a => m_n n * m_c c * m_a a * pz_zeta pz n c a))) in
  let phi := 1 + 2 / total * phi in
  Ok (- phi * total * waterMolarMass))).
End State.

(* A loop over positions 0, ..., n - 1 that sets the coefficients of species. *)
Fixpoint setM (n : nat) (idx : list nat) (f : nat -> outcome R) (g : nat -> R) : outcome (nat -> R) :=
  match n with O => Ok g | S k => bind (setM k idx f g) (fun g' => omap (set_at g' (nth k idx O)) (f k)) end.
(* Aqueous/ActivityModelPitzerHMW.cpp:1392-1447.  Aphi, which each of the
   functions evaluates before its loops, is evaluated once. *)
Definition pitzer_fn (Aphi : R -> R -> outcome R) (mx : Mixture) (pz : PitzerParams) : ActivityFn := fun T P x p =>
  let st := mixtureState mx T P x in
  let m := st_m st in let I := st_Ie st in let w := mx_water mx in
  bind (Aphi T P) (fun A =>
  bind (setM (length (pz_cations pz)) (pz_cations pz) (lnCation pz A I T m) (ln_g (fst p))) (fun g =>
  bind (setM (length (pz_anions pz)) (pz_anions pz) (lnAnion pz A I T m) g) (fun g =>
  bind (setM (length (pz_neutrals pz)) (pz_neutrals pz) (fun N => Ok (lnNeutral pz m N)) g) (fun g =>
  bind (lnWater pz A I T m (Sum (length (mx_species mx)) m - m w)) (fun ln_aw =>
  let a := set_at (fun i => g i + ln (m i)) w ln_aw in
  Ok (with_a (with_g (fst p) (set_at g w (ln_aw - ln (x w)))) a, Some (mx, st))))))).
(* Aqueous/ActivityModelPitzerHMW.cpp:1375-1389 and 1452-1455. *)
Definition pitzer (Aphi : R -> R -> outcome R) (data : PitzerData) (mixture : list Species -> outcome Mixture) (l : list Species) : outcome ActivityFn :=
  bind (mixture l) (fun mx => omap (pitzer_fn Aphi mx) (pitzerParams data mx)).
