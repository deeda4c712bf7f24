(* Model of the parameters of the HKF activity model
   (Thermodynamics/Aqueous/ActivityModelHKF.cpp): tables over pressure and
   temperature and their interpolation.  Numbers are exact rationals; the
   derivative parts are left out. *)
From Verif Require Import Base M_Math.

(* ActivityModelHKF.cpp:75-99. *)
Definition Agamma_data : list Q := [
  0.4939; 0.4871; 0.481; 0.4755; 0.4705; 0.4617; 0.4544; 0.4427; 0.4337; 0.4266;
  0.5114; 0.5047; 0.4985; 0.4928; 0.4875; 0.4782; 0.4701; 0.4568; 0.4462; 0.4375;
  0.5354; 0.5281; 0.5213; 0.5151; 0.5094; 0.4991; 0.4901; 0.475; 0.4628; 0.4526;
  0.5649; 0.5565; 0.5488; 0.5418; 0.5353; 0.5236; 0.5134; 0.4963; 0.4824; 0.4707;
  0.5996; 0.5897; 0.5807; 0.5725; 0.5649; 0.5515; 0.5398; 0.5202; 0.5043; 0.491;
  0.6396; 0.6276; 0.6168; 0.607; 0.5981; 0.5823; 0.5688; 0.5463; 0.5282; 0.5131;
  0.6855; 0.6707; 0.6573; 0.6455; 0.6348; 0.6161; 0.6003; 0.5743; 0.5536; 0.5365;
  0.7383; 0.7195; 0.7028; 0.6881; 0.6751; 0.6528; 0.6341; 0.604; 0.5803; 0.5609;
  0.7995; 0.7753; 0.7538; 0.7355; 0.7194; 0.6925; 0.6703; 0.6352; 0.6081; 0.5861;
  0.8718; 0.8401; 0.8117; 0.7882; 0.7682; 0.7353; 0.7088; 0.6678; 0.6367; 0.6118;
  0.9596; 0.9169; 0.8783; 0.8476; 0.8221; 0.7815; 0.7498; 0.7018; 0.6662; 0.6381;
  1.0704; 1.0111; 0.9563; 0.9152; 0.8823; 0.8317; 0.7934; 0.7372; 0.6964; 0.6646;
  1.2183; 1.1325; 1.05; 0.9934; 0.9502; 0.8865; 0.84; 0.7739; 0.7272; 0.6915;
  1.4357; 1.3019; 1.1668; 1.0856; 1.0277; 0.9467; 0.89; 0.8122; 0.7588; 0.7186;
  1.8233; 1.5767; 1.3188; 1.197; 1.1175; 1.0132; 0.9438; 0.8521; 0.791; 0.746;
  2.2948; 2.2948; 1.53; 1.335; 1.223; 1.0871; 1.0019; 0.8937; 0.8241; 0.7737;
  1.8509; 1.8509; 1.8509; 1.5114; 1.349; 1.17; 1.0648; 0.9373; 0.8581; 0.8019;
  2.3997; 2.3997; 2.3997; 1.7439; 1.5014; 1.2632; 1.1333; 0.9831; 0.893; 0.8305;
  3.3844; 3.3844; 3.3844; 2.0579; 1.6877; 1.3685; 1.2078; 1.0311; 0.9291; 0.8597;
  4.7805; 4.7805; 4.7805; 2.481; 1.9161; 1.4874; 1.2889; 1.0815; 0.9662; 0.8895;
  6.0949; 6.0949; 6.0949; 3.0235; 2.193; 1.6213; 1.377; 1.1344; 1.0047; 0.9202]%Q.
(* ActivityModelHKF.cpp:101-125. *)
Definition Bgamma_data : list Q := [
  0.3253; 0.3251; 0.325; 0.3249; 0.3248; 0.3248; 0.3248; 0.325; 0.3253; 0.3257;
  0.3288; 0.3285; 0.3283; 0.3281; 0.328; 0.3277; 0.3275; 0.3273; 0.3272; 0.3273;
  0.3328; 0.3325; 0.3322; 0.3319; 0.3317; 0.3312; 0.3309; 0.3304; 0.33; 0.3298;
  0.3373; 0.3369; 0.3365; 0.3361; 0.3358; 0.3352; 0.3347; 0.3339; 0.3333; 0.3329;
  0.3421; 0.3416; 0.3411; 0.3406; 0.3402; 0.3394; 0.3388; 0.3377; 0.3369; 0.3363;
  0.3472; 0.3465; 0.3459; 0.3453; 0.3448; 0.3439; 0.3431; 0.3417; 0.3407; 0.3398;
  0.3526; 0.3517; 0.3509; 0.3502; 0.3495; 0.3484; 0.3474; 0.3458; 0.3445; 0.3435;
  0.3581; 0.357; 0.356; 0.3551; 0.3543; 0.3529; 0.3518; 0.3499; 0.3483; 0.3471;
  0.3639; 0.3625; 0.3612; 0.3601; 0.3591; 0.3575; 0.3561; 0.3538; 0.3521; 0.3506;
  0.37; 0.3683; 0.3666; 0.3652; 0.364; 0.362; 0.3604; 0.3577; 0.3557; 0.354;
  0.3767; 0.3744; 0.3722; 0.3705; 0.369; 0.3666; 0.3646; 0.3615; 0.3592; 0.3573;
  0.384; 0.381; 0.3781; 0.3759; 0.374; 0.3711; 0.3688; 0.3652; 0.3625; 0.3604;
  0.3925; 0.3885; 0.3845; 0.3815; 0.3792; 0.3756; 0.3729; 0.3688; 0.3657; 0.3633;
  0.4031; 0.3976; 0.3915; 0.3875; 0.3845; 0.3801; 0.3769; 0.3722; 0.3688; 0.3661;
  0.418; 0.4096; 0.3994; 0.394; 0.3901; 0.3848; 0.3809; 0.3755; 0.3717; 0.3687;
  0.4324; 0.4324; 0.4089; 0.4011; 0.3961; 0.3894; 0.3849; 0.3787; 0.3745; 0.3712;
  0.4209; 0.4209; 0.4209; 0.409; 0.4024; 0.3942; 0.3889; 0.3819; 0.3771; 0.3736;
  0.4366; 0.4366; 0.4366; 0.418; 0.4092; 0.3991; 0.3929; 0.3849; 0.3797; 0.3759;
  0.456; 0.456; 0.456; 0.4282; 0.4165; 0.4042; 0.3969; 0.3879; 0.3822; 0.378;
  0.4718; 0.4718; 0.4718; 0.4393; 0.4243; 0.4093; 0.4009; 0.3909; 0.3846; 0.3801;
  0.478; 0.478; 0.478; 0.4503; 0.4322; 0.4145; 0.4049; 0.3937; 0.3869; 0.3822]%Q.
(* ActivityModelHKF.cpp:127-155. *)
Definition bNaCl_data : list Q := [
  21.962; 22.211; 22.437; 22.643; 22.831; 23.162; 23.444; 23.901; 24.258; 24.548;
  18.081; 18.321; 18.542; 18.746; 18.934; 19.273; 19.569; 20.063; 20.461; 20.792;
  14.53; 14.783; 15.016; 15.232; 15.432; 15.794; 16.112; 16.648; 17.088; 17.458;
  11.235; 11.516; 11.775; 12.012; 12.233; 12.63; 12.979; 13.57; 14.055; 14.465;
  8.125; 8.449; 8.745; 9.015; 9.264; 9.71; 10.1; 10.757; 11.295; 11.749;
  5.138; 5.521; 5.868; 6.183; 6.47; 6.98; 7.421; 8.158; 8.757; 9.26;
  2.214; 2.678; 3.095; 3.467; 3.804; 4.395; 4.9; 5.733; 6.402; 6.96;
  (-0.71); (-0.137); 0.376; 0.826; 1.227; 1.919; 2.503; 3.449; 4.2; 4.821;
  (-3.703); (-2.981); (-2.336); (-1.783); (-1.298); (-0.477); 0.201; 1.283; 2.127; 2.817;
  (-6.858); (-5.93); (-5.096); (-4.402); (-3.807); (-2.824); (-2.028); (-0.787); 0.164; 0.932;
  (-10.304); (-9.082); (-7.969); (-7.08); (-6.339); (-5.147); (-4.209); (-2.779); (-1.707); (-0.852);
  (-14.247); (-12.59); (-11.042); (-9.873); (-8.934); (-7.476); (-6.362); (-4.709); (-3.498); (-2.547);
  (-19.06); (-16.716); (-14.437); (-12.856); (-11.643); (-9.837); (-8.506); (-6.592); (-5.223); (-4.166);
  (-25.556); (-21.993); (-18.343); (-16.122); (-14.524); (-12.262); (-10.663); (-8.439); (-6.893); (-5.718);
  (-36.227); (-29.865); (-23.076); (-19.806); (-17.65); (-14.783); (-12.853); (-10.265); (-8.519); (-7.214);
  (-48.639); (-48.639); (-29.22); (-24.1); (-21.113); (-17.436); (-15.095); (-12.08); (-10.108); (-8.663);
  (-38.002); (-38.002); (-38.002); (-29.287); (-25.032); (-20.261); (-17.41); (-13.895); (-11.671); (-10.072);
  (-52.214); (-52.214); (-52.214); (-35.791); (-29.554); (-23.299); (-19.818); (-15.719); (-13.214); (-11.449);
  (-76.652); (-76.652); (-76.652); (-44.209); (-34.857); (-26.594); (-22.338); (-17.561); (-14.746); (-12.801);
  (-110.79); (-110.79); (-110.79); (-55.166); (-41.133); (-30.187); (-24.986); (-19.429); (-16.271); (-14.134);
  (-143.76); (-143.76); (-143.76); (-68.878); (-48.527); (-34.113); (-27.778); (-21.329); (-17.796); (-15.455)]%Q.
(* ActivityModelHKF.cpp:157-182. *)
Definition bNapClm_data : list Q := [
  (-15.448); (-14.872); (-14.39); (-14.002); (-13.708); (-13.401); (-13.471); (-14.739); (-17.512); (-21.789);
  (-9.752); (-9.563); (-9.404); (-9.276); (-9.178); (-9.073); (-9.09); (-9.487); (-10.37); (-11.739);
  (-5.63); (-5.603); (-5.579); (-5.56); (-5.544); (-5.524); (-5.518); (-5.552); (-5.647); (-5.801);
  (-2.411); (-2.466); (-2.51); (-2.546); (-2.571); (-2.594); (-2.577); (-2.43); (-2.128); (-1.672);
  0.244; 0.145; 0.063; (-0.002); (-0.051); (-0.097); (-0.075); 0.172; 0.691; 1.482;
  2.529; 2.405; 2.301; 2.218; 2.156; 2.097; 2.122; 2.426; 3.069; 4.052;
  4.559; 4.421; 4.305; 4.212; 4.142; 4.074; 4.101; 4.438; 5.153; 6.246;
  6.406; 6.263; 6.139; 6.04; 5.966; 5.894; 5.921; 6.276; 7.032; 8.187;
  8.119; 7.976; 7.848; 7.746; 7.67; 7.595; 7.623; 7.987; 8.763; 9.95;
  9.729; 9.591; 9.462; 9.359; 9.282; 9.205; 9.233; 9.6; 10.384; 11.583;
  11.259; 11.13; 11.001; 10.897; 10.82; 10.743; 10.771; 11.138; 11.921; 13.119;
  12.723; 12.608; 12.479; 12.377; 12.3; 12.224; 12.251; 12.614; 13.391; 14.581;
  14.133; 14.036; 13.909; 13.807; 13.731; 13.656; 13.682; 14.041; 14.808; 15.984;
  15.496; 15.421; 15.296; 15.196; 15.121; 15.047; 15.073; 15.426; 16.182; 17.339;
  16.818; 16.771; 16.648; 16.55; 16.476; 16.403; 16.428; 16.775; 17.517; 18.654;
  18.09; 18.09; 17.969; 17.872; 17.8; 17.728; 17.753; 18.093; 18.821; 19.935;
  19.38; 19.38; 19.262; 19.167; 19.096; 19.026; 19.05; 19.383; 20.096; 21.188;
  20.645; 20.645; 20.529; 20.437; 20.367; 20.298; 20.322; 20.648; 21.346; 22.415;
  21.887; 21.887; 21.774; 21.683; 21.615; 21.547; 21.57; 21.89; 22.572; 23.618;
  23.108; 23.108; 22.997; 22.908; 22.841; 22.775; 22.798; 23.11; 23.777; 24.801;
  24.308; 24.308; 24.199; 24.113; 24.048; 23.983; 24.005; 24.31; 24.963; 25.964]%Q.
(* ActivityModelHKF.cpp:184-192. *)
Definition temperature_range : list Q := [
  0; 25; 50; 75; 100; 125; 150; 175; 200; 225; 250; 275; 300; 325; 350; 375; 400; 425; 450; 475; 500]%Q.
(* ActivityModelHKF.cpp:194-199. *)
Definition pressure_range : list Q := [
  1; 250; 500; 750; 1000; 1500; 2000; 3000; 4000; 5000]%Q.
(* ActivityModelHKF.cpp:228-238. *)
Definition Agamma : Grid := mkGrid pressure_range temperature_range Agamma_data.
Definition Bgamma : Grid := mkGrid pressure_range temperature_range Bgamma_data.
Definition bNaCl : Grid := mkGrid pressure_range temperature_range bNaCl_data.
Definition bNapClm : Grid := mkGrid pressure_range temperature_range bNapClm_data.
(* Common/ConvertUtils.hpp:26 and 35. *)
Definition kelvinToCelsius (T : Q) : Q := (T - 273.15)%Q.
Definition pascalToBar (P : Q) : Q := (P * 0.00001)%Q.
(* ActivityModelHKF.cpp:240-245 and 247-252. *)
Definition debyeHuckelParamA (T P : Q) : outcome Q := bilinear Agamma (pascalToBar P) (kelvinToCelsius T).
Definition debyeHuckelParamB (T P : Q) : outcome Q := bilinear Bgamma (pascalToBar P) (kelvinToCelsius T).
(* ActivityModelHKF.cpp:254-259 and 261-266. *)
Definition solventParamNaCl (T P : Q) : outcome Q := omap (Qmult 0.0000001) (bilinear bNaCl (pascalToBar P) (kelvinToCelsius T)).
Definition shortRangeInteractionParamNaCl (T P : Q) : outcome Q := omap (Qmult 0.01) (bilinear bNapClm (pascalToBar P) (kelvinToCelsius T)).
