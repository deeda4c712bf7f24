(* The Debye-Hueckel slope of Pitzer's model as a function of temperature and pressure
   (Thermodynamics/Aqueous/ActivityModelPitzerHMW.cpp): a table over both and its
   bilinear interpolation. *)
From Verif Require Import Base M_Math.

(* ActivityModelPitzerHMW.cpp:448-452. *)
Definition Aphi_temperatures : list Q := [0; 25; 50; 75; 100; 125; 150; 175; 200; 225; 250; 275; 300; 325; 350]%Q.
(* ActivityModelPitzerHMW.cpp:454-458. *)
Definition Aphi_pressures : list Q := [1; 100; 200; 400; 600; 800; 1000; 1500; 2000; 3000; 4000; 5000]%Q.
(* ActivityModelPitzerHMW.cpp:466-480. *)
Definition Aphi_data : list Q := [
  0.37674222; 0.39147278; 0.41031975; 0.43330198; 0.46058910; 0.49248630; 0.52954906; 0.57258689; 0.62280952; 0.68208055; 0.75343848; 0.84226817; 0.95932062; 1.13030749; 1.43881804;
  0.37511283; 0.38962104; 0.40816127; 0.43071699; 0.45741532; 0.48854946; 0.52461006; 0.56635820; 0.61497721; 0.67238823; 0.74195091; 0.83021165; 0.95211387; 1.13030749; 1.43881804;
  0.37349119; 0.38778969; 0.40603633; 0.42818435; 0.45432255; 0.48468653; 0.51967722; 0.55991097; 0.60632611; 0.66040079; 0.72461917; 0.80356970; 0.90695201; 1.06002794; 1.35961218;
  0.37031872; 0.38423960; 0.40194465; 0.42334123; 0.44845489; 0.47742645; 0.51051253; 0.54810417; 0.59077384; 0.63937254; 0.69522720; 0.76056419; 0.83951064; 0.94084255; 1.08752618;
  0.36723706; 0.38083131; 0.39805034; 0.41877218; 0.44297410; 0.47072404; 0.50217061; 0.53754295; 0.57716443; 0.62148709; 0.67116338; 0.72719329; 0.79124059; 0.86637464; 0.95905835;
  0.36424217; 0.37755559; 0.39433845; 0.41445319; 0.43784086; 0.46451346; 0.49453834; 0.52802729; 0.56513171; 0.60604478; 0.65101410; 0.70037330; 0.75461241; 0.81453466; 0.88162611;
  0.36133042; 0.37440405; 0.39079550; 0.41036291; 0.43302090; 0.45873872; 0.48752239; 0.51939798; 0.55439682; 0.59254133; 0.63383034; 0.67822265; 0.72561799; 0.77583430; 0.82858092;
  0.35439502; 0.36702034; 0.38260006; 0.40101786; 0.42215421; 0.44591174; 0.47220102; 0.50092041; 0.53193360; 0.56504392; 0.59996245; 0.63626628; 0.67334062; 0.71029469; 0.74583251;
  0.34791990; 0.36026613; 0.37522638; 0.39274277; 0.41269203; 0.43494673; 0.45937116; 0.48580434; 0.51403915; 0.54379790; 0.57470298; 0.60623985; 0.63770811; 0.66815393; 0.69627074;
  0.33621768; 0.34833639; 0.36246295; 0.37869462; 0.39694660; 0.41708490; 0.43894731; 0.46233761; 0.48701196; 0.51266165; 0.53889233; 0.56519854; 0.59093075; 0.61524994; 0.63706014;
  0.32597289; 0.33811759; 0.35176187; 0.36716097; 0.38429206; 0.40304427; 0.42326335; 0.44475696; 0.46728781; 0.49056178; 0.51421251; 0.53778186; 0.56069387; 0.58221783; 0.60141144;
  0.31695465; 0.32925197; 0.34262585; 0.35747187; 0.37383264; 0.39162945; 0.41072659; 0.43094633; 0.45206745; 0.47381721; 0.49585921; 0.51777702; 0.53905156; 0.55902802; 0.57686399]%Q.
(* Common/ConvertUtils.hpp:23 and 56. *)
Definition celsiusToKelvin (T : Q) : Q := (T + 273.15)%Q.
Definition barToPascal (P : Q) : Q := (P * 100000)%Q.
(* ActivityModelPitzerHMW.cpp:790-796. *)
Definition Aphi_grid : Grid := mkGrid (map celsiusToKelvin Aphi_temperatures) (map barToPascal Aphi_pressures) Aphi_data.
Definition Aphi (T P : Q) : outcome Q := bilinear Aphi_grid T P.
