(** The tables of include/drt/color_maps.hpp, written by scripts/tables.py: each literal of the
    source is a double, given exactly as the pair (m, k) with value m / 2^k. *)
From Coq Require Import ZArith List.
Import ListNotations.
Local Open Scope Z_scope.

(* color_maps.hpp:20 *)
Definition plasma_r : list (Z * Z) := [
  (6665372946980737,55); (3442892106761765,54); (887788510546507,52); (457209089645903,51); (470339464327697,51); (3866443382193245,54);
  (1984480346873503,53); (508811192799039,51); (4171241143986631,54); (1067832368843581,52); (2185411395508379,53); (4469824443056291,54);
  (4568376421154745,54); (1166645711504465,52); (1191111483894813,52); (1215513008441249,52); (2479721433998735,53); (5056623771898281,54);
  (644209325397985,51); (2625273262801719,53); (5347306101510721,54); (5443936415372783,54); (1385124324360531,52); (2818502604499811,53);
  (716680187809135,51); (5829866052087267,54); (2963107314894625,53); (1505637586426861,52); (1529709478524123,52); (6215108137262607,54);
  (6311317029234811,54); (6407494844976069,54); (6503662849897811,54); (824972834228633,51); (1673971426020575,52); (6791927173328513,54);
  (6887948427289771,54); (3491950477268079,53); (7079771854102893,54); (3587814005292929,53); (7271378323818887,54); (7367066012023449,54);
  (932830627350997,51); (1889541046941331,52); (7653531808025583,54); (968598578788641,51); (7843953372766367,54); (496184021631817,50);
  (8033817287951425,54); (8128498096307847,54); (8223028216769135,54); (8317349851679823,54); (8411481151991881,54); (8505403813664441,54);
  (8599098201924391,54); (8692570873086517,54); (8785784874191117,54); (8878739550470631,54); (8971411619176311,54); (4531893585364061,53);
  (4577937689805759,53); (577976452813109,50); (4669530486762097,53); (4715069354276413,53); (4760434053024837,53); (4805617284274869,53);
  (2425298642504779,52); (4895395640477705,53); (2469990671300783,52); (311522479783839,49); (5028509056809267,53); (634056619395809,50);
  (1279040736581625,51); (5159624551177191,53); (5202867006164889,53); (2622930982499263,52); (5288607652567491,53); (5331092108357541,53);
  (2686669360732333,52); (5415309989036043,53); (2728511321163567,52); (2749231968901509,52); (5539630402029781,53); (2790263072667515,52);
  (5621140674793003,53); (5661487323703445,53); (5701547420105983,53); (5741335589006737,53); (361301550871759,49); (1455008736305793,51);
  (2929484082663763,52); (2948799936133857,52); (1483991304104115,51); (1493509953431011,51); (3005917344121031,52); (6049332325384717,53);
  (1521637884657959,51); (382718939527135,49); (3080083627868275,52); (6196564831580651,53); (6232669174351581,53); (6268515323430533,53);
  (6304086038880609,53); (6339390110960679,53); (1593606851770051,51); (3204603276434289,52); (6443727716044617,53); (3238990250716445,52);
  (6511991799668505,53); (6545752253628823,53); (6579252106469829,53); (3306262505595477,52); (3322772693207087,52); (3339173337064455,52);
  (1677723120286047,51); (3371612360997659,52); (846913703350377,50); (6807178952151777,53); (6838832243222463,53); (1717564947491007,51);
  (6901467618473189,53); (3466232799735765,52); (6963259550094849,53); (6993832525303323,53); (3512099831434647,52); (881795871768527,50);
  (7084326227055861,53); (1778523044241959,51); (7143656051630621,53); (7173023874682353,53); (56267091080843,46); (1807790221630983,51);
  (113436656010901,47); (3644260807301103,52); (7316920829479009,53); (459069891215525,49); (7373136164188831,53); (462559394724727,49);
  (7428573883425825,53); (7455999827587575,53); (3741617709037369,52); (938785632152645,50); (29441929941883,45); (7563786302537559,53);
  (3795117870928077,52); (7616495052013223,53); (7642549875576263,53); (7668397325903623,53); (3847021126965345,52); (3859735316742367,52);
  (7744703729955001,53); (7769709809249977,53); (974313649964019,50); (7819080450110241,53); (3921714005094371,52); (7867557710415327,53);
  (7891447436000157,53); (1978777133959407,51); (1984629794244811,51); (62200774051213,46); (499038648395617,49); (2001822730611407,51);
  (8029712557862403,53); (4025931045588651,52); (4036875407527313,52); (4047683071719121,52); (4058350555214111,52); (8137743734435847,53);
  (2039626818990593,51); (4089485263527205,52); (8199130557741543,53); (8218988227074353,53); (2059633143269497,51); (4128882422431001,52);
  (8276655168928509,53); (8295218234205053,53); (8313448234678611,53); (8331326573716377,53); (4174431014028051,52); (1045753315142453,50);
  (8382846653072323,53); (8399276561978361,53); (2103833432248433,51); (4215500100089983,52); (4223135246139583,52); (8461156655569341,53);
  (8475632781194205,53); (8489696653678733,53); (2125832850982851,51); (8516551300649549,53); (8529323339240855,53); (8541649721785939,53);
  (8553533208455655,53); (8564957829828581,53); (8575928862330985,53); (8586412923043617,53); (8596433042302495,53); (8605956347487387,53);
  (8614993620873977,53); (8623528418492823,53); (8631536696516421,53); (8639032193461257,53); (8645991690828017,53); (8652427943042737,53);
  (8658317601448561,53); (8663653519804041,53); (8668427281963707,53); (8672635039592793,53); (8676269723461711,53); (8679310337324389,53);
  (8681757402941897,53); (8683600585478013,53); (8684821669693577,53); (8685427915550365,53); (8685392104695767,53); (8684722367233181,53);
  (8683390658733175,53); (8681395349802159,53); (8678737037675975,53); (8675387115290447,53); (8671343661743249,53); (8666607266712639,53);
  (8661157302068819,53); (8654966831792205,53); (8648023188529275,53); (8640338169034861,53); (8631900325244535,53); (8622705549850815,53);
  (8612740045320537,53); (8601997408079917,53); (8590433993071055,53); (8578034785550497,53); (8564832530074613,53); (8550837912200931,53);
  (8536009702778887,53); (8520276176392599,53); (4251863271078591,52); (4243192517548949,52); (4234026127399747,52); (4224470974656285,52);
  (8428937799370571,53); (8408055423698027,53); (8386351682791773,53); (8363730512421955,53); (260634413642821,48); (1039510211002833,50);
  (8290961983506169,53); (4132576492800253,52); (8238674308466109,53); (8211593501845127,53); (4092001365049895,52); (8156129524830147,53);
  (4064147517258973,52); (8101147148882385,53); (8075492492685291,53); (4026480673127897,52)].

(* color_maps.hpp:23 *)
Definition plasma_g : list (Z * Z) := [
  (0,0); (0,0); (0,0); (0,0); (0,0); (0,0);
  (0,0); (0,0); (0,0); (0,0); (0,0); (0,0);
  (0,0); (0,0); (0,0); (0,0); (0,0); (0,0);
  (0,0); (0,0); (0,0); (0,0); (0,0); (0,0);
  (0,0); (0,0); (0,0); (0,0); (0,0); (0,0);
  (0,0); (0,0); (0,0); (0,0); (0,0); (0,0);
  (0,0); (0,0); (0,0); (0,0); (0,0); (0,0);
  (0,0); (0,0); (0,0); (0,0); (0,0); (0,0);
  (0,0); (0,0); (0,0); (0,0); (0,0); (0,0);
  (0,0); (0,0); (0,0); (0,0); (0,0); (0,0);
  (0,0); (0,0); (0,0); (0,0); (0,0); (0,0);
  (0,0); (0,0); (0,0); (0,0); (0,0); (0,0);
  (0,0); (0,0); (0,0); (0,0); (0,0); (0,0);
  (0,0); (0,0); (0,0); (2859170274493919,66); (1076818382067263,57); (4401619448209595,58);
  (6754738248289747,58); (4607972395947185,57); (5891014612918817,57); (7122025211221215,57); (8268838322967801,57); (2337984191412365,55);
  (40564286203147,49); (2843927922288257,55); (3083307114466857,55); (828858249810827,53); (3541502319952837,55); (3762154939842489,55);
  (3978146262187827,55); (4190142707939393,55); (4398385610045971,55); (4603421518715089,55); (300340312890837,51); (5004855857520351,55);
  (5201802488243845,55); (1349129500254551,53); (2794623699313429,54); (5780058876281567,55); (2984581218849909,54); (3078320342969749,54);
  (1585666208744835,53); (6527248736925639,55); (3355270503904971,54); (3446337467291983,54); (3536817976750533,54); (3626794141630119,54);
  (1858128071608675,53); (3805279091810493,54); (486730534212861,51); (3982021082577317,54); (2034917260577843,53); (4157263265239411,54);
  (2122205189384589,53); (2165605203645505,53); (2208881567848061,53); (1126000688400595,52); (4590023047702787,54); (4675822568720625,54);
  (4761389670677189,54); (605849728933817,51); (4932015980031853,54); (5017097092027699,54); (5102008148962873,54); (2593410270108457,53);
  (5271498314526541,54); (1339018288249581,52); (5440591479543533,54); (5525037054669925,54); (2804720371824851,53); (1423446111111525,52);
  (361132315324817,50); (2931219240769713,53); (5946737420462685,54); (6031078573564351,54); (6115423481559565,54); (3099919015919289,53);
  (6284283460147253,54); (99512603919253,48); (403336657148147,50); (3269024064491351,53); (206963605878807,49); (6707726539821317,54);
  (6792749129272349,54); (1719470352246371,52); (6963188010716625,54); (1762156806749387,52); (3567121222093025,53); (7220057302972093,54);
  (3653015255030731,53); (7392226197862199,54); (3739301294543429,53); (3782621084300919,53); (3826042057513809,53); (483697020218579,50);
  (3913253629157241,53); (7914106167739975,54); (4000997282457769,53); (8090129621378373,54); (8178575568460619,54); (8267288852224787,54);
  (8356329742350451,54); (8445685389962789,54); (8535348103406079,54); (8625364587259855,54); (8715708199953601,54); (8806389230028867,54);
  (8897436060718065,54); (8988817231985665,54); (4540296920173307,53); (2293179965557441,52); (4632621393053931,53); (4679067447208553,53);
  (4725721835454807,53); (298285098124685,49); (4819610574797911,53); (1216713567557749,51); (4914305016716123,53); (2480987603127683,52);
  (1252460209349049,51); (2528963310978987,52); (1276554345252995,51); (5154747308333557,53); (1300868379862575,51); (1313106711543773,51);
  (2650805434872437,52); (5351000864878661,53); (2700315598613053,52); (5450476907730115,53); (5500554407211959,53); (5550847468186621,53);
  (5601369038462307,53); (2826066122373937,52); (712891219798207,50); (5754360245889463,53); (2902908002509049,52); (5857505111783705,53);
  (5909428762329443,53); (5961582035079737,53); (187936823949329,48); (6066600358521729,53); (6119465803401617,53); (3086278498092541,52);
  (3112950584646625,52); (6279462015432023,53); (6333253295828319,53); (3193653536368987,52); (805197214463909,50); (1624023229707175,51);
  (6550834131982641,53); (6605829340554303,53); (6661041409050207,53); (6716484516395549,53); (6772172846770149,53); (1707021797981855,51);
  (6884237918498849,53); (867577979425027,50); (6997255600912937,53); (7054104248771725,53); (7111175175609809,53); (1792123024813467,51);
  (3613003862566517,52); (7283751390120161,53); (3670865128306305,52); (462496665036717,49); (3729180838229439,52); (7516987031116573,53);
  (1893952785963211,51); (7634885643569105,53); (7694152686148039,53); (484598887097763,49); (7813286971125889,53); (7873136180153961,53);
  (3966598656765555,52); (1998359989546371,51); (8053843323078629,53); (8114459921541343,53); (8175213754125319,53); (1029515930411347,50);
  (2074304150977865,51); (2089610103493827,51); (4209871004221787,52); (8481148079975697,53); (8542640622191601,53); (8604137216178849,53);
  (8665582963138903,53); (8726770822395909,53); (8787531493675299,53); (8847353707480691,53)].

(* color_maps.hpp:26 *)
Definition plasma_b : list (Z * Z) := [
  (4774477167433827,53); (4821053504391355,53); (304077241320611,49); (4907308850086215,53); (77305147208647,47); (4986112205405439,53);
  (5023212469312301,53); (1264748127249885,51); (5093615529353733,53); (2563590327605599,52); (1289944788820443,51); (5191482090767967,53);
  (5222363713735323,53); (328280314428797,49); (5281875999130269,53); (5310598550360651,53); (5338678016364213,53); (670767018700925,50);
  (5393014201390909,53); (2709658259661899,52); (2722532774356443,52); (5470266345466225,53); (686866814915403,50); (5519085327316751,53);
  (2771353182291939,52); (2782904882816419,52); (1397093669843081,51); (701303838571289,50); (5631948574068853,53); (5652930130170677,53);
  (5673373819957759,53); (5693257841540149,53); (357037262032413,49); (5731351859995171,53); (5749534403464771,53); (2883558253669771,52);
  (5784088988530231,53); (5800443291221429,53); (5816156564817003,53); (2915611828884239,52); (2922813882672017,52); (5859349124081899,53);
  (2936185862198345,52); (1471171010654007,51); (5896261828524081,53); (5907090085249965,53); (5917171429764585,53); (2963232223094009,52);
  (5934964881982431,53); (2971325153167705,52); (5949515523696245,53); (5955539070647191,53); (5960713587416521,53); (5965013092403647,53);
  (5968435267373661,53); (1492738697766445,51); (5972561321868031,53); (2986627788083941,52); (1493254813902965,51); (186619824363903,48);
  (746213684232795,50); (23307138262167,45); (46582708085085,46); (2978790087772717,52); (5951596347414393,53); (5944638332699807,53);
  (2968347726407567,52); (2963891783536399,52); (2958953511241251,52); (5907051816996669,53); (5895232460822781,53); (5882451924842883,53);
  (5868734842734717,53); (5854068839442221,53); (2919234042786849,52); (5821958379001115,53); (2902270206407831,52); (2893120528730677,52);
  (1441767260139597,51); (2873521580814209,52); (5726189208699117,53); (5704526979082181,53); (5682078154141933,53); (353678991874349,49);
  (2817461493068587,52); (5610261324074873,53); (1396229640621955,51); (5558917776005385,53); (5532299382018477,53); (2752541879219891,52);
  (5477281875319621,53); (170280060474061,48); (2710054761973743,52); (2695396736960401,52); (5361016781786333,53); (2665415389027673,52);
  (165632965287903,48); (1317329318076217,51); (5238042671531555,53); (325403763733153,49); (5174613022420829,53); (5142502850638883,53);
  (5110182128316083,53); (5077660652344989,53); (5044948031938751,53); (2506048504193833,52); (77798574682147,47); (2473004544313809,52);
  (614102139789263,50); (2439783882697327,52); (1211565359675817,51); (4812907645378893,53); (4779550326202159,53); (2373095228182019,52);
  (4712835842427147,53); (4679487490829103,53); (1161547319338147,51); (1153230901120017,51); (4579708927619921,53); (4546553068520305,53);
  (2256723935710821,52); (8960856577741871,54); (8894972485746283,54); (8829276873952459,54); (8763770495668589,54); (8698418425419907,54);
  (8633253676767959,54); (8568278606162481,54); (8503489964575397,54); (8438890353307339,54); (8374494302264717,54); (8310268508148321,54);
  (8246281442228225,54); (8182461983818119,54); (8118829613038801,54); (8055380041317947,54); (3996040301412953,53); (7928962833328625,54);
  (3932997030830853,53); (7803187521468783,54); (1935140758227905,52); (959756196597221,51); (1903919609368691,52); (7553416912182539,54);
  (7491278082659017,54); (7429229600245617,54); (7367302132548299,54); (7305479085795857,54); (7243707551567211,54); (7182018062621995,54);
  (890047315753011,51); (7058801016103923,54); (1749308762164867,52); (3467873478326897,53); (6874265692437273,54); (1703198111922425,52);
  (843917413748303,51); (3344936736487483,53); (3314203412174717,53); (6566906366958979,54); (3252700989554785,53); (805482331233897,51);
  (3191129209217427,53); (6320612929928701,54); (782365645038151,51); (6197170512326625,54); (6135351304785787,54); (6073460801987183,54);
  (3005740406075575,53); (5949411456938839,54); (5887263611907581,54); (5825002914135517,54); (5762658243012681,54); (5700213747077057,54);
  (5637642351494519,54); (5574980789506323,54); (5512172608948101,54); (5449264617821185,54); (5386239280546997,54); (1330772013039345,52);
  (1314957414735111,52); (1299100145978183,52); (5132837156647971,54); (79205725652799,48); (5005367409538021,54); (4941418637430361,54);
  (2438682659476741,53); (2406584456259597,53); (593609213168129,51); (2342192723689727,53); (577473169633357,51); (4555067442729459,54);
  (4490226341169419,54); (4425268810864265,54); (4360207921737997,54); (536881126750425,51); (4229787575232535,54); (4164464135136763,54);
  (4099070782907435,54); (4033597793927245,54); (3968046902132613,54); (3902448995077201,54); (1918420826592419,53); (3771254688163947,54);
  (926421540821363,52); (3640181379644213,54); (3574764486890031,54); (7018943336764307,55); (6888658929630525,55); (3379410025911349,54);
  (6629402767138121,55); (3250333896112063,54); (3186350261216159,54); (6245506403987305,55); (6119388408034041,55); (1498610753657861,53);
  (2935446412118669,54); (5748879850412499,55); (1407179125083543,53); (5510585242137957,55); (5394756005818065,55); (330099719665553,51);
  (5171368440961323,55); (633046222325401,52); (4960850013964229,55); (1215345196515613,53); (4766394108190259,55); (4676253353284817,55);
  (2295751421241515,54); (4512525929254115,55); (554947071361257,52); (2186563895579121,54); (4313781593799401,55); (4261923982206795,55);
  (4217763796337507,55); (2090643420402087,54); (4153076920947831,55); (4133170004157135,55); (2060438578691605,54); (1029177465645281,53);
  (4119801902845807,55); (4129560916851173,55); (4145263511700145,55); (4165340234245187,55); (4188561318215379,55); (2106398735860487,54);
  (4235043487316219,55); (4252369200215373,55); (1065027023732671,53); (4252140092966209,55); (1054965526371213,53); (2075588256896231,54);
  (2013915999533235,54); (3821698134863551,55); (3483317579344797,55); (2920810099316539,55)].

(* color_maps.hpp:46 *)
Definition viridis_r : list (Z * Z) := [
  (5086627581415029,54); (5123658166132219,54); (322467553590177,50); (5194055822613521,54); (5227406961724373,54); (5259488806034515,54);
  (5290334699300335,54); (5319914763150495,54); (83565895233625,48); (2687626106280455,53); (5401004374323829,54); (5425451612285187,54);
  (5448589246159351,54); (5470425026525283,54); (5490928541496223,54); (5510112608148061,54); (5527962131031357,54); (5544476589199165,54);
  (2779824299044195,53); (174171613473883,49); (1396494426014335,52); (5597112433469265,54); (87607729337557,48); (5615335353670227,54);
  (5622428798491721,54); (1407043512566117,52); (1408145115026449,52); (5635675739838317,54); (1409355824107355,52); (2818935913112309,53);
  (5637016515460289,54); (5634868907224645,54); (5631444502889673,54); (5626754900996445,54); (5620830767418915,54); (2806853102409823,53);
  (5605357491936659,54); (2797917688403409,53); (349072428708129,50); (348335219676229,50); (695059431820189,51); (5546507677289839,54);
  (5531477246395965,54); (5515461844326087,54); (2749239564792571,53); (5480536811867451,54); (341355205864303,50); (1360488402739845,52);
  (677673017788505,51); (1350004975011303,52); (2688949900823877,53); (5355048441814175,54); (5331497401871699,54); (5307291851541409,54);
  (5282459162689741,54); (2628533763034527,53); (5231149661068435,54); (5204711680623745,54); (5177809440451121,54); (5150480015707529,54);
  (2561363353211515,53); (5094631394670259,54); (1266552642196507,52); (2518757019688893,53); (2504265897479793,53); (1244834336846483,52);
  (4949927976179043,54); (2460168821447719,53); (4890604266472255,54); (303796452638407,50); (4830788207723879,54); (1200187139561631,52);
  (2385331055169555,53); (4740536813427635,54); (4710392144794979,54); (4680265025450661,54); (2325074520921639,53); (2310035748481517,53);
  (1147502158838487,52); (1140003130005363,52); (4530061602269529,54); (4500164617107039,54); (4470354404610095,54); (34692187645843,47);
  (4410923436144969,54); (4381304830892183,54); (4351775809518347,54); (4322290489088181,54); (4292875206712575,54); (2131757841985655,53);
  (4234188672865367,54); (4204892105020861,54); (2087816094042907,53); (2073192636192959,53); (4117115779373113,54); (4087859658286049,54);
  (4058554972630225,54); (4029196879948511,54); (1999897032272293,53); (3970295649451947,54); (3940712299471977,54); (3910994260818323,54);
  (3881137309604889,54); (3851140392983735,54); (238808274458549,50); (473815939896637,51); (3759887281868869,54); (3729028312203519,54);
  (1848944339550893,53); (1833232846035115,53); (3634748525257589,54); (3602708780025809,54); (1785174714841025,53); (13818938856281,46);
  (1752295760794173,53); (6942309573053997,55); (6874643908937143,55); (6806203881316103,55); (842120100684301,52); (6666914422456301,55);
  (6596026194431471,55); (6524365178791565,55); (1613000865102985,53); (6378844869244655,55); (6304971252679927,55); (6230357264509077,55);
  (3077586055463225,54); (3039662884683701,54); (6003042375716133,55); (1481566621356583,53); (5849278977140293,55); (5772064880707363,55);
  (1423701703984641,53); (2808820334502555,54); (5540697402370119,55); (2732118553822335,54); (5388443271919475,55); (1328396484003995,53);
  (654991736409435,52); (2583889311027235,54); (5097385423972347,55); (628644702373707,52); (4963459209007075,55); (4900670095795225,55);
  (2420642641912851,54); (2392895485705603,54); (4734574398682393,55); (4688269636213193,55); (4647321612523951,55); (4612321137751921,55);
  (4583784817362661,55); (4562356945166675,55); (4548520360662905,55); (4542868984243427,55); (2272924171122475,54); (4558042236665971,55);
  (4579788614489791,55); (72055239074571,49); (581707470322375,52); (294145598831579,51); (4769777651156151,55); (4844176752682707,55);
  (2464780209091983,54); (314118238755827,51); (5133202066526545,55); (5251205370771303,55); (672485824345645,52); (5518868673384809,55);
  (708499825317207,52); (5826963138882443,55); (2997704042691209,54); (96455023974907,49); (6359649037129283,55); (1638680233369595,53);
  (6757958613815977,55); (435564847096195,51); (1796928915790285,53); (3706784716333135,54); (1911592270285925,53); (3942873152479575,54);
  (2032897942439353,53); (2095871402439533,53); (33755012690731,47); (278270291798553,50); (573338470210843,51); (2361857784374965,53);
  (4863215050787059,54); (5005146033869543,54); (5149380257219597,54); (2647957247757677,53); (5444583452755021,54); (2797675888968147,53);
  (2874081955531613,53); (5902929727493389,54); (189363456429917,49); (3109066939178745,53); (3189237905843611,53); (6540539711414111,54);
  (1676077293268359,52); (3434876566132613,53); (7036752354398529,54); (7205341852776387,54); (1843845625454943,52); (7546917803913437,54);
  (3859910157379511,53); (7894116322128773,54); (8069762177605093,54); (8246656408426773,54); (8424847267015175,54); (8604198395058491,54);
  (8784757402313067,54); (8966372760899151,54); (4574531519148819,53); (2333203500536121,52); (4758736041828715,53); (2425777594463379,52);
  (4944776372184667,53); (5038436649961393,53); (5132459109852737,53); (2613414331630927,52); (5321558148382843,53); (2708276043197659,52);
  (5511839306684415,53); (5607343237594669,53); (5703072932855641,53); (5798951870131231,53); (5894967053157815,53); (1497776059700573,51);
  (1521824229121743,51); (1545886527674921,51); (6279766569237877,53); (6375969528687125,53); (6472068370031277,53); (6568085721476225,53);
  (6663916302594157,53); (6759565872277597,53); (1713753626824719,51); (6950166092845059,53); (3522525863512669,52); (7139586654901031,53);
  (904221662282683,50); (915942092255997,50); (7420864795704629,53); (3756881727732767,52); (3803074726186781,52); (962256617182283,50);
  (7789390001535463,53); (7880190958144851,53); (3985172023175151,52); (8059884841833133,53); (4074417975093257,52); (4118567844946225,52);
  (8324811425200155,53); (8411810673054167,53); (8498170346025649,53); (8583855965456811,53)].

(* color_maps.hpp:49 *)
Definition viridis_g : list (Z * Z) := [
  (0,0); (0,0); (0,0); (0,0); (6121723681022451,61); (4569935526684497,59);
  (7795883048639607,59); (350324717508741,54); (7410193382131323,58); (1164452285226949,55); (5661563608898449,57); (6667288149046469,57);
  (7627221751124157,57); (8552901976805357,57); (2362652318276635,55); (1290677363830293,54); (2795383677913917,55); (3005445380532903,55);
  (1606069727227007,54); (3415921338341287,55); (1808633839885277,54); (119261450990919,50); (4013571779233043,55); (4209130539838145,55);
  (2201558710174553,54); (4595833362633487,55); (4787208042772553,55); (4977519178317467,55); (645845094025543,52); (2677534495966993,54);
  (1385606680187537,53); (5728877485064701,55); (1478633623178629,53); (6099370203244841,55); (1570855225958363,53); (1616662639724285,53);
  (3324586758741239,54); (6830911077686253,55); (7011844060001563,55); (3596036445969201,54); (3685738206992661,54); (943769325242013,52);
  (3863995382168557,54); (1976269728040913,53); (2020325444929519,53); (4128353667013717,54); (1053913965426391,52); (4302532916334297,54);
  (1097248496797645,52); (4474978112179303,54); (4560568343636121,54); (4645686351532597,54); (4730354955381145,54); (4814596393152829,54);
  (2449184944377261,53); (4981699854405933,54); (2532263144586113,53); (5146948531887527,54); (1307217614649599,52); (2655165519380557,53);
  (2695676590017317,53); (5471913903284865,54); (5552018254362439,54); (2815822171043607,53); (5710833564279633,54); (5789564931944301,54);
  (5867859307848175,54); (5945737661795453,54); (6023160222278943,54); (6100185663968399,54); (6176775162415577,54); (6252950633593893,54);
  (1582182109419473,52); (200128445174065,49); (6479115996254275,54); (3276862873004927,53); (3313989421533411,53); (6701856672165477,54);
  (3387698544406447,53); (3424300151591279,53); (6921485163149137,54); (3497017065540301,53); (7066266243962433,54); (7138218408246309,54);
  (7209873322247035,54); (3640634192875477,53); (7352385610392597,54); (1855815512497395,52); (7493880391749147,54); (7564277883053003,54);
  (3817227315067743,53); (7704411998960495,54); (3887093133428609,53); (3921871033120709,53); (3956576572756463,53); (7982365379547887,54);
  (8051434264991539,54); (8120359008822847,54); (8189124107823185,54); (8257782727506991,54); (8326301020639943,54); (8394732718360863,54);
  (8463043291213541,54); (8531250488638143,54); (8599409564497213,54); (8667449220088359,54); (8735459975966241,54); (8803388626887487,54);
  (8871270762257451,54); (8939090707302827,54); (9006866270855483,54); (1134329115739751,51); (1142792363425329,51); (2302513733968249,52);
  (4638855610987913,53); (1168172384966059,51); (2353256104653047,52); (4740332424554965,53); (1193537455300273,51); (2403982836610787,52);
  (75652943382439,47); (2437804923614595,52); (1227357245876159,51); (2471628252065423,52); (4977073656563715,53); (5010916688185569,53);
  (78824218413107,47); (634823918345119,50); (5112432346346955,53); (5146281615283809,53); (2590065348229785,52); (5213979055178893,53);
  (5247827535818261,53); (5281666807080715,53); (5315514579873073,53); (5349353783090285,53); (5383192441223505,53); (2708506807757655,52);
  (5450834192808047,53); (5484628097731353,53); (2759202053662041,52); (5552179867735363,53); (5585919899875761,53); (1404912642152471,51);
  (2826668208346369,52); (2843501821327653,52); (357539708946553,49); (5754221695971955,53); (5787780282940171,53); (2910637917030745,52);
  (2927371844664497,52); (184004352163537,48); (5921497844934865,53); (5954775022229201,53); (2993998763486641,52); (1505286577384107,51);
  (756777847984613,50); (1521806332947651,51); (6120127973575515,53); (6152956680238255,53); (6185685365145689,53); (777289165894719,50);
  (6250848639166995,53); (392704101831409,49); (789447575275447,50); (6347759000558735,53); (6379826006748191,53); (3205878067392315,52);
  (805444686457737,50); (3237609903710825,52); (3253363381953759,52); (6538094309289099,53); (6569288344195133,53); (3300171338674073,52);
  (6631204927623481,53); (3330950619925691,52); (3346215003104781,52); (6722757355685761,53); (211028369800195,48); (211963990791561,48);
  (3406296085876639,52); (6842125872290693,53); (3435722747730979,52); (6900536005117543,53); (1732351180322183,51); (6958049728127281,53);
  (6986447162125637,53); (7014611453027637,53); (7042509989336185,53); (7070165799852379,53); (1774386630625435,51); (7124659058413681,53);
  (1787877552165189,51); (3589033875775851,52); (7204354400360705,53); (7230338341135163,53); (3628020882862153,52); (3640712167331557,52);
  (7306501441942989,53); (3665635087017801,52); (459732359200599,49); (7379847401524701,53); (7403646735291383,53); (7427109485851887,53);
  (3725120952629087,52); (7473022450607293,53); (1873864187651143,51); (3758771174152677,52); (7539281237032987,53); (7560653209282603,53);
  (7581668991189175,53); (7602308616590773,53); (7622586452186385,53); (7642507410571735,53); (239439129150869,48); (7681221425695359,53);
  (3850011736081219,52); (7718458718619393,53); (1934129407117041,51); (969275602325135,50); (7771533688894035,53); (7788495214832823,53);
  (7805098002132513,53); (3910666713474169,52); (7837227864834773,53); (7852773097196929,53); (1966993281099411,51); (3941424906078501,52);
  (7897395389423767,53); (7911635430460485,53); (3962781279327093,52); (1984800493110323,51); (3976282405243211,52); (7965657769869093,53);
  (997311544955165,50); (3995549522315203,52); (4001735922709341,52); (8015640727590881,53); (8027620920859677,53); (4019712206116167,52);
  (4025537689234799,52); (8062585975211091,53); (1009247166375059,50); (8085270418896757,53); (4048238801749215,52); (8107613645044543,53);
  (8118709163592197,53); (4064884897230503,52); (2035211094518987,51); (4075958775434491,52); (2040757093743237,51); (8174171186416263,53);
  (8185378850442633,53); (4098327358557499,52); (8208013561035563,53); (8219476741054903,53)].

(* color_maps.hpp:52 *)
Definition viridis_b : list (Z * Z) := [
  (5962949545629611,54); (3035736243152923,53); (6178936171628545,54); (1571312326173751,52); (798799232022943,51); (6494352123185737,54);
  (6597068528108269,54); (6698508858073801,54); (6798680916868051,54); (6897519651594029,54); (3497487133034197,53); (1772769091287221,52);
  (449107666798533,50); (454933946293033,50); (7370672232526995,54); (7460879355273369,54); (1887392263105651,52); (7636659513918377,54);
  (1930548833965673,52); (487879904814565,50); (7888333475862287,54); (996112555402959,51); (8047782071661735,54); (8124961999384385,54);
  (8200400436964691,54); (8274117892277563,54); (8346058633211801,54); (8416241132819415,54); (8484611538829311,54); (8551222566745473,54);
  (8616022441243105,54); (8679009936888667,54); (8740218718644633,54); (8799599226990841,54); (8857199968510957,54); (8913009662064059,54);
  (8967038374891513,54); (1127409619183513,51); (2267443820483597,52); (1139815962431243,51); (2291386333532677,52); (575680523149661,50);
  (4627257829648351,53); (4648260837107457,53); (1167108398699591,51); (4687817543073967,53); (4706408454824655,53); (4724232865782201,53);
  (592663628814447,50); (4757646362906625,53); (4773280200965485,53); (2394101365342335,52); (300152813455849,49); (1204009426724965,51);
  (4828982802540135,53); (2420657082014387,52); (4853043620060289,53); (4864204127666577,53); (2437395097841379,52); (4884849842875173,53);
  (4894385519552713,53); (2451714222780715,52); (2455996214244355,52); (1230025047898789,51); (4927773952653079,53); (2467513954172201,52);
  (1235470523348941,51); (4948347238872719,53); (1238611785213667,51); (2480101509616543,52); (4965630028490891,53); (310670686812545,49);
  (1243884846103465,51); (622508202599755,50); (2492159929945517,52); (2494163501987763,52); (39000696320979,46); (4995613299999989,53);
  (4998919430915403,53); (5002014798482283,53); (5004919135794407,53); (5007630926641239,53); (5010159974649013,53); (5012524932800943,53);
  (5014724517621607,53); (5016759846661027,53); (5018647950201877,53); (5020389761343659,53); (5021993408821901,53); (627932406937637,50);
  (5024787694350629,53); (2512993476097029,52); (1256764410891115,51); (5028008268831253,53); (5028821002460921,53); (5029513646570291,53);
  (5030077159547419,53); (1257630195759765,51); (5030826045515949,53); (5031011149295833,53); (628882229426957,50); (1257741501683423,51);
  (5030735693591157,53); (2515183422306385,52); (5029840973525387,53); (2514579226085831,52); (2514154791834019,52); (2513651958214089,52);
  (628265339164685,50); (5024757385943477,53); (2511599249440789,52); (5021454553524975,53); (2509749598888577,52); (5017349386392369,53);
  (5014969984427667,53); (2506179762693321,52); (1252377549144597,51); (625801521475155,50); (5003055528053781,53); (4999432582089973,53);
  (4995523330293025,53); (2495664784823055,52); (4986849254463081,53); (4982057020933685,53); (4976942812441561,53); (621436969674331,50);
  (2482859329305985,52); (4959572084826709,53); (4953077119048897,53); (2473097001522991,52); (2469472116441313,52); (1232821925483743,51);
  (2461618558688855,52); (2457381623834127,52); (4905863545940009,53); (4896524132015485,53); (1221685040454615,51); (4876489130108023,53);
  (2432891885390505,52); (606825273081251,50); (4842923168445721,53); (4830743280879389,53); (602257442947777,50); (4804856013134353,53);
  (4791130282266651,53); (597109363578057,50); (4762069571595753,53); (2373355274476321,52); (2365396672724143,52); (2357153839290169,52);
  (4697235430497493,53); (2339792658555785,52); (4661338515856253,53); (4642495254918827,53); (1155760257414919,51); (4602970702127299,53);
  (572784426435111,50); (4560953560579747,53); (2269503254891019,52); (4516404051371761,53); (8986332989545681,54); (8938538640678947,54);
  (8889429616603983,54); (8838993164061857,54); (8787220609160695,54); (8734082503294409,54); (8679586551099083,54); (8623741018514803,54);
  (8566512012619941,54); (8507883465546041,54); (8447883247131783,54); (8386478936181399,54); (8323645297139635,54); (8259384123752583,54);
  (8193727370550561,54); (8126618786480903,54); (8058075480051769,54); (3994055926091167,53); (1979167672215107,52); (1960946515473141,52);
  (7769399161590081,54); (3846781481795737,53); (7616235828780103,54); (3768726764324363,53); (3728596143143611,53); (3687713626189719,53);
  (3646097944514827,53); (3603716125014475,53); (7121156657993351,54); (7033356022281025,54); (6944070087754263,54); (3426635053721651,53);
  (845113355949395,51); (1666769200675585,52); (6571667713887381,54); (3237378951217171,53); (3188144074968455,53); (6276262879608173,54);
  (3087341557792337,53); (3035764948024103,53); (2983421547848641,53); (2930287439679363,53); (5752764350134837,54); (2821689582441947,53);
  (345776130086993,50); (5419892670506227,54); (331610690966599,50); (648758539380771,51); (5072757307951825,54); (2476925413738907,53);
  (4833294862099549,54); (4711193388971069,54); (4587476727237605,54); (4462146679778901,54); (270952482311335,50); (1051669328637843,52);
  (4076580691842861,54); (1972418656034253,53); (3811557212195975,54); (3676702155714367,54); (1770119915575113,53); (6804586363360595,55);
  (6525582247310275,55); (390233921863695,51); (2979488669395291,54); (2835809141809085,54); (2690850236984433,54); (5089370701475777,55);
  (4795141513589087,55); (1124792380537597,53); (2101075335551267,54); (3904582297570997,55); (3607493987672403,55); (1655980178501643,54);
  (1509773903782105,54); (2732389841688239,55); (2453203390848727,55); (8743461968814059,57); (7740710064148933,57); (6831221012591875,57);
  (6046260452954425,57); (5425307024715403,57); (5022795650237509,57); (4848424120226573,57); (4906473391797569,57); (2600260170806129,56);
  (2867107327416491,56); (6478557773598301,57); (7383037606673409,57); (8413616355771217,57); (298163699180397,52); (671350582805165,53);
  (2999433455712423,55); (3323710855575061,55); (1827987980140589,54); (1997054044722997,54)].

(* color_maps.hpp:72 *)
Definition inferno_r : list (Z * Z) := [
  (6481473231190509,61); (4634568558691031,60); (1595622475908715,58); (1059574528764007,57); (5455139069270829,59); (3422783060165731,58);
  (8415647132641831,59); (5083334381110893,58); (6058016848796119,58); (7131953807568455,58); (4155965564026597,57); (600352297712327,54);
  (2753783552349311,56); (6259062562634311,57); (7017510924969173,57); (7782711840857929,57); (8556761492101617,57); (583901458833101,53);
  (2534619637648125,55); (1368200964942509,54); (1470656340073761,54); (787458525212997,53); (1681023998518229,54); (447241902856037,52);
  (118672397444537,50); (4021019473906753,55); (2124199538259103,54); (2239854612906315,54); (2357396507274127,54); (2476785789097671,54);
  (5195692326801729,55); (5440904372234751,55); (2844425765479693,54); (742363648551101,52); (6190726471051293,55); (6443629004154635,55);
  (3348587209608361,54); (6950454334880553,55); (3601478288540167,54); (3727121303776903,54); (3851860091961441,54); (993882465323901,52);
  (4097937398613023,54); (4219037190061313,54); (2169350391821239,53); (1114233804835499,52); (2286859795359483,53); (4689083535287623,54);
  (2401573957350545,53); (2457958243960683,53); (2513756048950491,53); (2568989636736903,53); (1311856180341265,52); (5355922341071227,54);
  (682943017182425,51); (1392606440483847,52); (5676602135797251,54); (361387294884243,50); (5887223418825843,54); (5991773058378949,54);
  (1523985778118789,52); (6199723467791987,54); (6303218075399689,54); (6406421819066773,54); (6509441482062855,54); (3306123851113563,53);
  (6714913288908361,54); (6817491477124897,54); (864996321590209,51); (1755606369967749,52); (7124811428400897,54); (903398465802493,51);
  (7329568765088065,54); (7431951181068301,54); (3767206657381719,53); (477306478307269,50); (7739479264047645,54); (245065723235919,49);
  (3972422487089699,53); (8047638333636477,54); (8150549452651277,54); (8253529998893609,54); (8356623200358255,54); (8459834494347673,54);
  (8563111591223253,54); (8666538437203953,54); (8770047923008767,54); (8873674920029319,54); (8977380722502229,54); (4540596366406571,53);
  (4592559768146455,53); (1161138388110467,51); (4696594806403853,53); (1187168398339469,51); (2400395211906961,52); (2426468071323731,52);
  (4905097481844567,53); (4957304970147807,53); (2504756678347423,52); (5061740897649111,53); (639246142885695,50); (5166215964971375,53);
  (2609222784207083,52); (2635327160815511,52); (5322871876085899,53); (2687522370247839,52); (5427199669136573,53); (5479301534292859,53);
  (5531376696877163,53); (2791685944270005,52); (1408827338511483,51); (355449570749471,49); (5738970075881067,53); (5790683596912497,53);
  (5842272131955677,53); (2946885487274721,52); (5945136313757261,53); (2998185818160715,52); (6047472648736723,53); (3049202281527365,52);
  (3074596214581175,52); (6199792834438001,53); (6250213499966337,53); (787553495347275,50); (6350422963725877,53); (6400210500518157,53);
  (3224878336733593,52); (101547664738181,47); (1637018941416383,51); (6596838956168947,53); (207665547877637,48); (6693466374156935,53);
  (3370651724972109,52); (848601377162681,50); (3417991490253279,52); (6882786074021757,53); (6929225542206405,53); (6975268425557625,53);
  (3510459937058967,52); (3533069230358209,52); (888866814654101,50); (7155292929299213,53); (7199180571197499,53); (3621305359723007,52);
  (910692792882839,50); (228999347857041,48); (7369898067927199,53); (14475179705199,44); (7452161159022369,53); (1873116464214885,51);
  (1883054327089787,51); (7571376025901733,53); (3804980635166785,52); (7647943370440969,53); (480332106771613,49); (3861035790141563,52);
  (7758188068388339,53); (7793671875065781,53); (3914252084430205,52); (7862683379395085,53); (7896191416587569,53); (7929017868829289,53);
  (7961179109108959,53); (7992630875354447,53); (4011702893898355,52); (8053469930792211,53); (8082828092624233,53); (4055736744303755,52);
  (8139394833239855,53); (4083299118356393,52); (8193068563510191,53); (8218818560249983,53); (2060954090222605,51); (4134041338857959,52);
  (8291604319509483,53); (8314386656933999,53); (8336416537810363,53); (261177841052483,48); (8378210980043551,53); (2099495803250913,51);
  (263030949116623,48); (8435230847996115,53); (8452722191320137,53); (4234718460637633,52); (8485388190836255,53); (1062571230127625,50);
  (8514982914968979,53); (8528625074977903,53); (8541488945098137,53); (8553580468081011,53); (8564893249438733,53); (8575421282599635,53);
  (8585175176302579,53); (8594140904612903,53); (8602322926086019,53); (8609707917271999,53); (8616317126365167,53); (8622120708406503,53);
  (8627137643048481,53); (8631351826928967,53); (8634769527516347,53); (8637392800001673,53); (8639212003643421,53); (8640219111403309,53);
  (8640422924876635,53); (8639824641171455,53); (8638405978027435,53); (8636187218205427,53); (8633149863490669,53); (8629305310431011,53);
  (8624644309949505,53); (8619170341659385,53); (8612884075364933,53); (8605794569761029,53); (8597898629954145,53); (8589176262285673,53);
  (8579661693242007,53); (8569354344690751,53); (8558261884407445,53); (8546404737323463,53); (8533792882057051,53); (8520447174678921,53);
  (2126596157415075,51); (1061455763903807,50); (8476222151754541,53); (8460138687100787,53); (8443491261781455,53); (8426332737719987,53);
  (4204378013351725,52); (8390774189572843,53); (4186229140615509,52); (8354025212241193,53); (130244214751073,47); (8317277811223259,53);
  (8299318723694653,53); (64703421177473,46); (2066379505110975,51); (8250320377945353,53); (4118363532638197,52); (8225247592390617,53);
  (4108193940705277,52); (256584502212677,48); (8208791754876479,53); (8211204608781191,53); (4109243221803957,52); (8231030921150765,53);
  (8249154507585717,53); (517058954215477,49); (8302385705313621,53); (4168643167452101,52); (8377348255435765,53); (2105551946509691,51);
  (1058932467000669,50); (8524676046704943,53); (8581491952719627,53); (8641502527541355,53)].

(* color_maps.hpp:75 *)
Definition inferno_g : list (Z * Z) := [
  (8843909450365179,65); (4511214225631559,62); (2165855702020637,60); (6752877693928331,61); (4752368944671073,60); (6276412481752295,60);
  (3967773149469855,59); (607600500363421,56); (2901276990803757,58); (1698276232581931,57); (3910389550820273,58); (8875339214030127,59);
  (622156940699813,55); (1380261134981729,56); (3032311548469649,57); (3303023415505409,57); (1784697515874801,56); (7652268196833385,58);
  (2036606064877457,56); (8614751076817801,58); (4525795620954337,57); (4723127312367927,57); (1224228057097423,55); (5045083154740937,57);
  (5164579109768087,57); (5252209503804039,57); (331587992437285,53); (5321821793019529,57); (5299666724648959,57); (5115245742017,47);
  (5136556839441935,57); (4996050130279153,57); (2409207447064581,56); (4606613642042733,57); (1091164140850725,55); (4096972729940165,57);
  (7618271604693967,58); (3509200583748791,57); (6408418739379327,58); (2901045670243217,57); (1303229917861683,56); (1163560838858639,56);
  (4137701196831715,58); (459079412428031,55); (6534346538205635,59); (5855318457408477,59); (2659432462548361,58); (4928123363639677,59);
  (4685990027972571,59); (2296553576438481,58); (2323863518097093,58); (4848867532568333,59); (5192160259429935,59); (2837968768752113,58);
  (1572934539147287,57); (7035297425959333,59); (987526067467283,56); (4440861984319801,58); (4987094732959907,58); (5586042707560487,58);
  (6235417641998145,58); (3466341267578193,57); (7675375700733481,58); (8461076521695785,58); (4644027284139507,57); (5077272382887169,57);
  (5529088817568645,57); (5994571745046011,57); (6454720567347971,57); (6909570781697375,57); (7358993571529285,57); (7803277172717241,57);
  (8242267870905323,57); (8675724333166133,57); (2275985333241919,55); (297720452330645,52); (2486298241813165,55); (2589611964379063,55);
  (1345910535736145,54); (2792882595818271,55); (2892907214336369,55); (2991883361855511,55); (3089965291693291,55); (796784535286353,53);
  (410433975470641,52); (3379050156087047,55); (3473847779109863,55); (891995588230509,53); (3661516306089763,55); (3754491184543999,55);
  (3846991393505093,55); (3939069134356399,55); (4030747717294457,55); (2061037667618891,54); (1053298167976403,53); (4304100762582633,55);
  (4394834983898351,55); (4485544587951253,55); (1144048727212851,53); (4666916103611957,55); (2378873076736681,54); (1212183860595379,53);
  (2469980162671549,54); (5031484397264251,55); (5123373907518995,55); (2607832440754583,54); (2654240811910441,54); (2700926849171123,54);
  (5495828587757477,55); (5590514681539279,55); (5685932859844301,55); (1445546134925121,53); (5879336275933461,55); (5977473749936483,55);
  (6076584681175361,55); (3088414892145041,54); (6278231480932839,55); (1595213265618727,53); (810603882101179,52); (411881823199241,51);
  (837111390765857,52); (1701279814634997,53); (6914997661098783,55); (878303870670483,52); (446224601876473,51); (1813637583836137,53);
  (3685656543928575,54); (3744989536317533,54); (1902648885735185,53); (3866630196346223,54); (3928972732803987,54); (3992394294854701,54);
  (4056879323012885,54); (1030624954580279,52); (4189272115345241,54); (2128589960654523,53); (4326313410402665,54); (4396618239379121,54);
  (558520893024329,51); (2270470800656299,53); (2307498651023735,53); (4690315901267289,54); (4766933838340559,54); (1211213261186391,52);
  (1231013273817919,52); (5004611249716843,54); (5086469028616547,54); (5169647086728427,54); (2627084084631859,53); (667503365770403,51);
  (5427212661564013,54); (5515719044946047,54); (5605573616901883,54); (5696731600257737,54); (5789198696478063,54); (2941490918707433,53);
  (5978052986985843,54); (3037212572188625,53); (6172031809631601,54); (3135462352256033,53); (6371035837101349,54); (3236187020012811,53);
  (6574947876818961,54); (3339335268153617,53); (3391807010906393,53); (1722413279636073,52); (3498430921229295,53); (3552574947761217,53);
  (1803631954556501,52); (1831247077109633,52); (1859119117568691,52); (3774506818617421,53); (7662507397453831,54); (3888508238092961,53);
  (7892447046467863,54); (8008811103624945,54); (8126121344734743,54); (8244282583016151,54); (8363337612225409,54); (8483208348970149,54);
  (8603920494741691,54); (8725413038945805,54); (8847712419181539,54); (8970756785141943,54); (2273630858431275,52); (1152382862771213,51);
  (2336064419186055,52); (4735086079622457,53); (4798362168076491,53); (2430990295465749,52); (4925899885544569,53); (623764795530529,50);
  (315916353364143,49); (2559739446917689,52); (5184594118882547,53); (2624982584738403,52); (664453183395985,50); (5381523393273619,53);
  (5447684863129117,53); (5514099532018235,53); (5580742693375387,53); (2823819597640133,52); (5714736736053373,53); (5782069561505919,53);
  (5849603171056331,53); (5917336525168171,53); (1496323982535151,51); (6053419320960625,53); (6121741328953879,53); (6190226914675847,53);
  (6258892649157333,53); (6327703278432707,53); (6396666976312925,53); (3232895970152459,52); (6535033574393325,53); (825553356874833,50);
  (6673926873605627,53); (3292740377115,42); (6813225278780795,53); (3441493367145979,52); (6952833794139655,53); (7022703040626671,53);
  (1773155056431041,51); (3581265366030803,52); (7232460265714481,53); (7302344882255021,53); (7372174127828419,53); (3720955025866527,52);
  (7511488534450181,53); (7580934477248007,53); (7650165294666073,53); (7719123791433043,53); (1946929632843313,51); (981994309522213,50);
  (495230371724999,49); (998848986760883,50); (8057267375014945,53); (1015359634462289,50); (4093771010667367,52); (2062765874268831,51);
  (4156649463331355,52); (8374042604446053,53); (8433137160467823,53); (4245212503665285,52); (8545751694345657,53); (8599057413830563,53);
  (8650265669092435,53); (8699443066732545,53); (8746626165405243,53); (8791950930545525,53); (8835577281273469,53); (8877665429039645,53);
  (8918391480548763,53); (8957892424030647,53); (8996355177753847,53); (1,0)].

(* color_maps.hpp:78 *)
Definition inferno_b : list (Z * Z) := [
  (8061789534863815,59); (5396395131957925,58); (3521211951116779,57); (2244669124411289,56); (5599870547936591,57); (6796482871167585,57);
  (7997327970858453,57); (2299847117129407,55); (2603463955295419,55); (1453912875725121,54); (401810326186857,52); (3523949633145309,55);
  (1917455151707371,54); (2074576672509717,54); (4466408832199249,55); (4785813832214613,55); (2553997138866745,54); (2717117285033931,54);
  (5762997830325889,55); (6094224986272807,55); (1607003155627997,53); (6765059958763635,55); (1776181924970067,53); (3723207664620621,54);
  (3894829458066167,54); (2033558945722505,53); (2119874922527665,53); (4412451399446567,54); (2292377353589391,53); (2378156420562617,53);
  (4926514053310801,54); (5094804622454245,54); (5260629713439127,54); (5423234886557057,54); (2791034659603981,53); (2868218493873493,53);
  (5885800209670045,54); (6029450094900197,54); (770864648828861,51); (3148954580673657,53); (6422050584577817,54); (6539277817318569,54);
  (6649458650617099,54); (3376351277341813,53); (6849084448658147,54); (3469423478137667,53); (1755566192418479,52); (7099584021010155,54);
  (3585585119947613,53); (3618665308149295,53); (456149258615909,50); (3677328036652773,53); (7406457252945007,54); (7454129677992217,54);
  (7497901957520259,54); (1884517063590807,52); (7574843342660813,54); (7608463071592453,54); (7639127830969377,54); (3833522564752613,53);
  (3846183254023289,53); (7715259565597705,54); (1933965770143755,52); (3877137572889039,53); (3885334004915265,53); (7785087924964597,54);
  (487352980959591,50); (3904220371423775,53); (7817533710841345,54); (3912492962646877,53); (122357279601701,48); (7835249017516875,54);
  (7838151518251495,54); (7839610766982773,54); (3919831615629741,53); (7838326792250289,54); (3917827672092355,53); (7831650310073321,54);
  (3913163938946383,53); (7819727099230341,54); (7811826544558323,54); (3901342398800485,53); (7792317925988807,54); (3890343527911657,53);
  (7767816139540757,54); (3876840405088377,53); (7738324573444047,54); (7721739541032685,54); (7703916442049383,54); (7684869203905723,54);
  (7664592788418877,54); (3821548747232259,53); (7620354533361139,54); (474773482796227,50); (473196792767287,50); (1886176189672219,52);
  (7517019450502791,54); (3744051822048219,53); (7457935946877153,54); (7426519152952001,54); (3696934725539133,53); (7359970274317459,54);
  (3662419537033923,53); (911060655439543,51); (7250881502806449,54); (3606014376421521,53); (7171925430562403,54); (7130610060149069,54);
  (7088061749662529,54); (3522151054236631,53); (3499669292470073,53); (6953159497235147,54); (863223503427579,51); (6857200410657153,54);
  (3403710632480027,53); (6756461298930101,54); (1676091132791089,52); (831387495497409,51); (6596689608937303,54); (6541179161944547,54);
  (3242270109480669,53); (6426819613799803,54); (6368005489627157,54); (6308110077510615,54); (6247171865606791,54); (6185174991670717,54);
  (6122204662574209,54); (3029105161612317,53); (5993278245949971,54); (1481843717920613,52); (2930284667345447,53); (90512920346867,48);
  (5724235544504795,54); (1413694279295729,52); (5584450940826577,54); (1378332002922783,52); (2720694369287651,53); (5368687050152157,54);
  (2647610208513989,53); (2610530420211967,53); (5146188181716349,54); (5070635668429329,54); (2497219755466941,53); (4917595370325379,54);
  (4840140113232419,54); (1190525851375481,52); (2341743469061065,53); (4604339989871045,54); (4524621156430255,54); (4444403165607073,54);
  (4363660136856529,54); (535303576765137,51); (525087402366483,51); (1029627175338775,52); (4035867230869359,54); (494091242771093,51);
  (3869150704778229,54); (473135059672325,51); (3700590917469369,54); (1807797286814327,53); (3530161745338313,54); (6888450472509999,55);
  (209861752491459,50); (3270846562255717,54); (1591680345287677,53); (1547680645117575,53); (3006750135001509,54); (364694317099847,51);
  (1413865618060323,53); (5474431795963445,55); (5292056571828003,55); (5108148593274567,55); (4922661783996395,55); (4735495008543813,55);
  (4546582678558161,55); (4355810946225573,55); (4162970544491311,55); (3968059312796311,55); (3770846884434769,55); (3571277479416945,55);
  (3369089402268349,55); (791072384213607,53); (2956554889314577,55); (2745875479188207,55); (2532012853445911,55); (1157373399664209,54);
  (8376072134552435,57); (7478346809962651,57); (6566009044525257,57); (5636701808026561,57); (4741916804159687,57); (3924580237496827,57);
  (3187294720184009,57); (1266572650780353,56); (1965257075182919,57); (2974160279896287,58); (4408521209617973,59); (6518209197243393,60);
  (2516361722143067,59); (8797618618620531,61); (4655962508324051,60); (2924152836320611,59); (8021717086457621,60); (2806459949849599,58);
  (969653145678767,56); (5236202839294783,58); (6894867165883243,58); (8871140726281731,58); (2795724081999739,56); (6852081547713365,57);
  (8126656855797221,57); (2353661407091347,55); (2679208620341583,55); (3008433444887287,55); (3341401383484451,55); (459810085322035,52);
  (4019749500518281,55); (4365648631090793,55); (4716349608189145,55); (5072181209900057,55); (169801875127249,50); (5800843954801201,55);
  (192948894075005,50); (6554415934373871,55); (6941668297744469,55); (1834115787116023,53); (3869578485395941,54); (1018791550054153,52);
  (1071280824592991,52); (2249956618976839,53); (4719802281513033,54); (4944974931266559,54); (2587766441217311,53); (5412296964569395,54);
  (2827557557592427,53); (5904114376460617,54); (6160218935505461,54); (3211383231816311,53); (6692304723487137,54); (1742119556008735,52);
  (7251138182902887,54); (3769831881031379,53); (3916642183895435,53); (8131068016100867,54); (8431432883953693,54); (8733158652783873,54);
  (2258565139225489,52); (4666816111377931,53); (4814702024908693,53); (4960289784467019,53); (2551719016258437,52); (5243114199198463,53);
  (1344931633284005,51); (172285244857967,48); (5643325976832723,53); (360640646220401,49)].

(* color_maps.hpp:98 *)
Definition blackbody_r : list (Z * Z) := [
  (0,0); (3602466827706407,58); (3602466827706407,57); (5403700241559611,57); (1774710403994043,55); (8562833600704437,57);
  (2466069834111385,55); (5522228041759421,56); (6064934839103523,56); (1642338223752493,54); (7042032262798423,56); (7487871203469933,56);
  (7910643080821759,56); (4156662850365671,55); (4349158279680115,55); (1133447348819725,53); (589316658646943,52); (1225356517677443,53);
  (2547311188717999,54); (5293617629074373,55); (2748974347249225,54); (5706588020347603,55); (2958371346864227,54); (3064051324524223,54);
  (1585158266776341,53); (1638575473647927,53); (6769079535616139,55); (3492469291842627,54); (7201853588705357,55); (7419800852987411,55);
  (3819379126524303,54); (982338135401419,52); (4039810958914581,54); (8301490489977687,55); (4262146792062467,54); (8748014941087297,55);
  (8972639173578061,55); (71860560086057,48); (4712269316308193,54); (2412946701834505,53); (4939941820186719,54); (1263602140582207,52);
  (5169287888942561,54); (5284574301583133,54); (675032815857455,51); (1379086875141093,52); (5632824353117183,54); (2874838008514203,53);
  (5866873723952139,54); (5984415449430279,54); (6102299147585601,54); (3110261379488019,53); (1584771053652973,52); (6457981439630773,54);
  (6577212356450115,54); (6696774887559409,54); (3408333479039125,53); (3468443248977045,53); (882178930483971,51); (7178299741090975,54);
  (7299489344869393,54); (7420998221795763,54); (1885706087771729,52); (3832482862735243,53); (7787420352175693,54); (988773281706741,51);
  (2008315367070327,52); (8156644050899111,54); (8280332073390235,54); (8404323624931401,54); (4264308406248779,53); (8653209761060035,54);
  (8778100613820735,54); (4451643766187131,53); (4514384348462047,53); (4577271153114267,53); (1160075822220357,51); (4703479873877655,53);
  (2383400017765261,52); (37736428989407,46); (4893867645299857,53); (2478806697437359,52); (2510749661984481,52); (5085524606334187,53);
  (5149688424864299,53); (5213989971478415,53); (5278428447057819,53); (667875382673989,50); (5407713033070131,53); (2736278794709447,52);
  (2768767983192255,52); (350165463029383,49); (354243198038665,49); (2866633254070315,52); (2899386348294133,52); (5864409011692255,53);
  (5930174739226731,53); (2998034586464097,52); (6062091614405435,53); (1532060343255611,51); (3093160644055685,52); (777520941762083,50);
  (3126999881246505,52); (6287818133889763,53); (6321622806912709,53); (6355413938206051,53); (1597297920617109,51); (6422956192516007,53);
  (6456707619291407,53); (6490446111899815,53); (815521477203369,50); (6557884881993129,53); (3295792724381127,52); (1656318414992213,51);
  (6658949655972109,53); (209144174232433,48); (840783194426329,50); (1689976432828419,51); (3396767118492481,52); (1706787801173803,51);
  (6860756765165909,53); (6894351047623339,53); (6927934179780581,53); (6961506287900555,53); (3497533748389003,52); (7028617929811563,53);
  (7062157708967713,53); (1773921738713213,51); (7129205786704285,53); (3581357161213125,52); (224881646205935,48); (3614850485234715,52);
  (1815794828021729,51); (3648323908079235,52); (3665053297101113,52); (3681777878233151,52); (7396995412027881,53); (3715212834378591,52);
  (7463846633371501,53); (7497258411408193,53); (7530661107287717,53); (7564054824295629,53); (7597439664618603,53); (7630815729362451,53);
  (3832091559267053,52); (3848770965556841,52); (7730892265009433,53); (3882117108560405,52); (7797567883320441,53); (7830893358481157,53);
  (490115966505889,49); (7850874418635705,53); (7859740064971335,53); (7868451746755511,53); (1969252200052923,51); (7885410553961259,53);
  (7893656328897417,53); (987718179755135,50); (7909677186387745,53); (7917450870763381,53); (7925065779689319,53); (1983130298300527,51);
  (992477047839801,50); (1986737652713711,51); (1988480782823225,51); (3980366594290381,52); (1991845004499551,51); (1993465711339609,51);
  (7980180886845973,53); (7986333348836487,53); (3996159713849327,52); (7998138309641029,53); (4001894585238929,52); (4004635587733475,52);
  (8014583479102511,53); (4009862612458493,52); (4012347772623435,52); (4014746780530787,52); (8034118381711221,53); (8038569104728489,53);
  (1005355601948177,50); (2011736146867055,51); (8050867481061127,53); (2013653136064535,51); (4029089405973433,52); (8061565305747307,53);
  (2016192758439915,51); (2016948747571273,51); (8070636155555525,53); (8073293495445405,53); (8075765961210495,53); (4039026244590813,52);
  (2020038000112363,51); (8082063400558197,53); (4041892789617723,52); (31583271132761,45); (505416109364109,49); (4043902719465605,52);
  (8088759300260431,53); (8089518139197575,53); (4045040371610251,52); (4045222940738709,52); (505663269027225,49); (1011322342931131,50);
  (8090343910371173,53); (8089906497104443,53); (8089265175213069,53); (1011052324429577,50); (8087365387248653,53); (4043052079189685,52);
  (2021158373584549,51); (8082951957918403,53); (4040529044332841,52); (8078950402373741,53); (8076627390525855,53); (4046722991321395,52);
  (2033128387726065,51); (4085454824129959,52); (8208621540448549,53); (8245636623245877,53); (8281942403945759,53); (8317526483192663,53);
  (8352376537381607,53); (8386480301391351,53); (4209912775816425,52); (8452400089421967,53); (4242095862324709,52); (8515188259612849,53);
  (2136344368257265,51); (2143686776043081,51); (8603284837156827,53); (8630978285156053,53); (8657814974739265,53); (4341891165036439,52);
  (8708867657094809,53); (8733058127571737,53); (4378170381447573,52); (2194675604446827,51); (8800129763610939,53); (8820609271453677,53);
  (8840127194807245,53); (8858669551841275,53); (8876222107163733,53); (8892770353094953,53); (4454149745142071,52); (8922794407758433,53);
  (8936239662116259,53); (8948619456027163,53); (1119989701968729,50); (4485058783883711,52); (8979202314296981,53); (140424287620031,47);
  (8993955923478821,53); (4499794216132131,52); (9004032969776593,53); (1,0)].

(* color_maps.hpp:101 *)
Definition blackbody_g : list (Z * Z) := [
  (0,0); (2171586500781503,59); (2171586500781503,58); (6514759502367567,59); (8686346003137541,59); (5428966251953757,58);
  (814344937792343,55); (7600552752723731,58); (4343173001554359,57); (305379351672579,53); (5428966251953757,57); (5968482660698959,57);
  (6481478761575441,57); (6970098333823239,57); (1859312631503883,55); (492832339173235,53); (129817539295009,51); (8684249030824445,57);
  (2253753680211059,55); (4651730518271021,56); (2387943124810535,55); (2441953984846739,55); (4989280961062935,56); (5093382761090927,56);
  (2598110823718401,55); (2648902627394999,55); (2699070305085529,55); (5497234164961227,56); (5595091824035341,56); (5691718972408723,56);
  (2893560249695445,55); (2940650410371631,55); (5974263898826467,56); (3033006630509129,55); (3078276008273087,55); (1561470717955347,54);
  (6334008144417885,56); (6420929775855481,56); (6506649343229911,56); (6591168069733247,56); (3337243417140393,55); (3378303090075379,55);
  (3418763161422905,55); (6917247157097003,56); (6995768263168851,56); (7073088912450993,56); (3574604036189861,55); (7224135978902005,56);
  (3648947264021825,55); (7370481109057143,56); (930236609269289,53); (1878031683826741,54); (118455927550595,50); (1912261796675311,54);
  (7715726391039485,56); (972651614602023,53); (3922751228934761,55); (3954295229503317,55); (7970472113769825,56); (2007785590406581,54);
  (4045297942362845,55); (8148827104513109,56); (4102915089171341,55); (8261598994793687,56); (8316127169995637,56); (523088002648005,52);
  (1052679333438063,53); (8472199813200369,56); (8521695952895863,56); (4284957629991675,55); (8616849600673675,56); (8662490527438915,56);
  (4353414635398909,55); (8749856731821813,56); (2197890868335995,54); (8831939711023913,56); (8870975303764059,56); (8908659743549593,56);
  (8944982144783899,56); (4489965616487763,55); (140835864572383,50); (2261415588663077,54); (4538209891351441,55); (2276438664828905,54);
  (4566826785376609,55); (4580051315470423,55); (4592543732446447,55); (2302148297656631,54); (576912775040179,52); (289097035679715,51);
  (4635039447013283,55); (1160938568514349,53); (2325844095506691,54); (2329416008871881,54); (2332588120800643,54); (291919437708855,51);
  (4675426082027575,55); (4679310878815551,55); (4682354400022599,55); (4684545239039671,55); (594750499700669,52); (1259579038925215,53);
  (5309440727758469,55); (5572577662410527,55); (364294170276331,51); (6078639209521473,55); (6323055130738399,55); (820316319315653,52);
  (849694760841861,52); (7028562487572811,55); (3627956377089113,54); (7479931596486033,55); (7700902958850663,55); (494942378512665,51);
  (2033670066608741,53); (8347909131401017,55); (2139735914207027,53); (8767945054072903,55); (8975059034759473,55); (2295104435877021,53);
  (2346035348915049,53); (4793169836535041,54); (4893556459842217,54); (4993276585478577,54); (636546565239543,51); (5190883255124139,54);
  (5288844785580347,54); (2693145211764553,53); (2741625524184819,53); (5579755337240943,54); (2837914983652743,53); (5771499795190619,54);
  (1466697004176059,52); (2980858154610291,53); (6056304959258223,54); (1537643244186343,52); (3122269098896019,53); (1584554344343525,52);
  (6431626272992179,54); (6524779720296083,54); (6617691701881789,54); (6710375409513183,54); (3401421650523777,53); (6895107152190963,54);
  (6987178103713979,54); (7079066704866387,54); (7170782952954809,54); (7262336329767831,54); (7353735835064761,54); (7444990017362237,54);
  (946340687423799,51); (7698302231342805,54); (1956239914920053,52); (7950746909487205,54); (8075709668052621,54); (4099945249682457,53);
  (4161664561586599,53); (527878916461737,50); (8568125869495191,54); (4344775657367231,53); (4405184786967695,53); (4465304691599051,53);
  (4525148892004129,53); (2292365063316245,52); (4644060410511479,53); (1175787772164729,51); (1190503221148969,51); (4820655944508979,53);
  (4879089877602651,53); (4937323792875511,53); (4995366332825317,53); (2526612852198849,52); (5110909707277771,53); (161513305002033,48);
  (5225780924214619,53); (1320745481559953,51); (5340035178149613,53); (1349236699090935,51); (5453722619222649,53); (5510368223209499,53);
  (5566888938037213,53); (5623289860591617,53); (2839787933995943,52); (5735751629669191,53); (1447955404669937,51); (5847790122234229,53);
  (5903661251533627,53); (5959438950965601,53); (751890875839421,50); (6070729054809121,53); (6126248588680085,53); (6181688966257177,53);
  (6237053416594309,53); (6292345046148403,53); (6347566844616057,53); (3201360845259005,52); (6457812356360263,53); (6512841513570029,53);
  (820976467139553,50); (51740043045859,46); (6677585226745815,53); (420774574912189,49); (3393575827948677,52); (3420931376110051,52);
  (1724132141892193,51); (6951151111485545,53); (7005732326021659,53); (7060274088547657,53); (7114778214437525,53); (3584623229786351,52);
  (7223680522783023,53); (1819520512031387,51); (1833113156761571,51); (7386793800469857,53); (3720553530372535,52); (7487083508339673,53);
  (7523328773099505,53); (3779828001262939,52); (3798033037374331,52); (3816279918974395,52); (7669138111042803,53); (3852900842192707,52);
  (7742551320427033,53); (3889693877194653,52); (7816311694850585,53); (7853323824439479,53); (3945212400178637,52); (7927615255044467,53);
  (7964895796730201,53); (2000566752497679,51); (8039729456298783,53); (4038641837300085,52); (8114930181809037,53); (4076334736669677,52);
  (8190502023600309,53); (4114214143254853,52); (4133224347976671,52); (2076140916567847,51); (4171386796372393,52); (2095269712997889,51);
  (8419479802462201,53); (8457976784845025,53); (265517816328359,48); (8535260121901531,53); (8574047072977905,53); (8612931249564475,53);
  (4325956454885771,52); (8690992296379155,53); (4365084818594195,52); (2192361286356669,51); (4404409510018011,52); (4424145723052683,52);
  (2221965648787449,51); (8927532625470839,53); (560456355155045,49); (1,0)].

(* color_maps.hpp:104 *)
Definition blackbody_b : list (Z * Z) := [
  (0,0); (4858718728882117,61); (1214679682217647,58); (3644039046655823,59); (4858718728876353,59); (3036699205551323,58);
  (7288078093300117,59); (4251378887777617,58); (4858718728876353,58); (341628660623443,54); (3036699205551323,57); (3340369126100691,57);
  (7288078093300117,58); (1973854483606919,56); (8502757775526411,58); (4555048808326985,57); (1214867227765687,55); (2583513010792055,56);
  (2738975513135919,56); (5792314621105261,57); (3050844196360987,56); (3201800888775635,56); (1673766189408115,55); (6976428534329009,57);
  (7248391662016749,57); (7511570800967367,57); (3883256686008303,56); (8013707809322263,57); (1031698993052973,54); (8486559921119571,57);
  (2178241985760023,55); (2233284771456737,55); (4573683676396835,56); (2338980278587495,55); (1194880755183305,54); (2439241905294059,55);
  (4974946662170717,56); (79203238145159,50); (5160753960214863,56); (2625134345175389,55); (5337627386916043,56); (2711450319305321,55);
  (5506154152823435,56); (2793724592738661,55); (2833421461427617,55); (718048602742819,53); (1455034228607725,54); (368419631311105,52);
  (373083771723567,52); (6044016006734827,56); (6118741563456199,56); (3096758741472507,55); (6268344211345867,56); (6343222176522339,56);
  (6418151788698313,56); (6493133441178549,56); (410510469434623,52); (6643254359328551,56); (6718394332495803,56); (6793587762115213,56);
  (6868834965816655,56); (6944136247748027,56); (7019491899058039,56); (3547451099178689,55); (7170367412179877,56); (3622943897707433,55);
  (7321463591681863,56); (7397095033921453,56); (467048896526957,52); (1887131433891293,54); (7624325409876929,56); (7700181560625049,56);
  (972011796498593,53); (7852064019212081,56); (991011333683585,53); (4002087240714681,55); (4040157803099451,55); (8156514186955739,56);
  (8232770359744611,56); (8309084253476553,56); (2096363997572297,54); (4230942842737333,55); (8538373448056127,56); (4307459690465907,55);
  (4345761790437539,55); (8768186139038773,56); (2211226785184773,54); (4460843333016011,55); (2249631197464365,54); (4537710790911521,55);
  (4576188553462359,55); (4614695712557203,55); (4653232296046313,55); (2345899164701025,54); (2365196918039579,54); (4769018837406687,55);
  (600959169087009,52); (1211589349819291,53); (4885070992750431,55); (1230953536674683,53); (4945331982043631,55); (4915118325061219,55);
  (1220963293791957,53); (4851509231902803,55); (2409028917575375,54); (2391734432778969,54); (4747710634896667,55); (2355374883008661,54);
  (4672551060622685,55); (4633077353459391,55); (2296144675544533,54); (4550145453545779,55); (4506601555925459,55); (8923221655779307,56);
  (275945216701785,51); (8734172848553513,56); (4317443092497893,55); (4266132959942109,55); (8426182431695199,56); (2079124152211981,54);
  (8203058835061417,56); (8085707830236069,56); (7964269322143949,56); (3919277258214957,55); (7708358327597671,56); (236670541305171,51);
  (7433607314337981,56); (911067568312689,53); (7137962348438611,56); (3490773584942083,55); (6818933825109629,56); (6649719753924761,56);
  (6473454038028559,56); (1572407206664991,54); (1524417176386175,54); (368557335839933,52); (5686620744248745,56); (2732952615394037,55);
  (5233749420307543,56); (2494473255413737,55); (4730053544775861,56); (8910642600614499,57); (4162595020747585,56); (240573105104875,52);
  (877892881723537,54); (6290428427551235,57); (5487851549705597,57); (2326771321962247,56); (7612692832708607,58); (5892368225456967,58);
  (2827641495318405,57); (5541246018381847,58); (5430147112810469,58); (2661023213873147,57); (5217004117041763,58); (5115080334549317,58);
  (5016335234121397,58); (1230207242402611,56); (2414310847405627,57); (2369886781802545,57); (2327172364922197,57); (2286197673690803,57);
  (2246992785005761,57); (8838351103230811,59); (2174012723022849,57); (4280595407126017,58); (8433891177475255,59); (8314272289350647,59);
  (4101227228791547,58); (8098557989935123,59); (4001351597026985,58); (7915010377644519,59); (1958899962088501,57); (3882295956972477,58);
  (7702106882006959,59); (1912066265075637,57); (3801593378268301,58); (3783496139178179,58); (7539801933466697,59); (7521736029572503,59);
  (3756457437160505,58); (3756729387708551,58); (1880872010141415,57); (7543122977471567,59); (7572483893782059,59); (7611691097259663,59);
  (7660864895493971,59); (7720125596247509,59); (7789593507167515,59); (7869388936016517,59); (994954023798013,56); (8060443578032805,59);
  (4085971703333751,58); (8294251983877785,59); (8427489617426183,59); (8571776615017577,59); (8727233284299203,59); (1111747491621993,56);
  (4536068434376341,58); (2315456099833575,57); (4731581416155193,58); (2419068118875279,57); (4950636818276863,58); (5069143311557725,58);
  (5193715871445587,58); (665551831474111,55); (5461299806452071,58); (5604431489275575,58); (1438467463521755,56); (738709381838753,55);
  (6071907245025849,58); (6240626578886939,58); (6415893210116909,58); (6597767292568203,58); (1696577245023315,56); (4918723989803537,56);
  (4581918722067129,55); (6102051940678599,55); (7369821055406889,55); (8494301399940821,55); (4762850770641623,54); (5245880432345009,54);
  (2852394211955027,53); (6145246393951797,54); (3285611234609001,53); (3492803387426823,53); (7390571614753087,54); (7787791632153551,54);
  (8178584953852573,54); (8564007275214061,54); (1118114581001973,51); (4661009669698707,53); (1211987883539711,51); (2516765398144569,52);
  (5217956613533499,53); (2700703753524965,52); (5584036860281419,53); (5765977240700209,53); (2973671917590307,52); (3064118604645733,52);
  (1577186386060763,51); (811118308251887,50); (6668908552774607,53); (1712173146527741,51); (3514176298291297,52); (900992092850201,50);
  (7387488054662847,53); (3783522532648995,52); (7746642350795939,53); (3963155496771077,52); (2026519745370195,51); (8285971553792935,53);
  (529125718823107,49); (4323109713776193,52); (8826613979293573,53); (1,0)].

(* color_maps.hpp:124 *)
Definition kindlmann_r : list (Z * Z) := [
  (0,0); (2571890320478209,57); (5149040806966157,57); (7523881995154129,57); (1185225083859077,54); (2795963786652685,55);
  (3166700238024029,55); (3499237690140537,55); (3790600367508403,55); (4037588516782409,55); (4243153642874889,55); (4422207769287849,55);
  (4583492388127683,55); (4727221386937129,55); (4855378799048359,55); (4969872972794417,55); (5072463714646683,55); (2581247146278803,54);
  (5241922264174325,55); (5312437353036971,55); (5373913853200625,55); (678438912476313,52); (2736786108321731,54); (2755627596392549,54);
  (5539555462104433,55); (5558912334881131,55); (5568461254161151,55); (5568059947290563,55); (5557108576804661,55); (2767464378206533,54);
  (2751297779887845,54); (1364614029529765,53); (5403148694824649,55); (5336670762251489,55); (5259069132414379,55); (2585223196887079,54);
  (5073458133083783,55); (620461881856243,52); (302927015406115,51); (295054078648623,51); (143448414178063,50); (4452912272483871,55);
  (1078586185116789,53); (4177196297807935,55); (2019271180388893,54); (3906329016767069,55); (3783938273402381,55); (459365401165293,52);
  (446884390125679,52); (3502936834046517,55); (3433160855677479,55); (3353645928186723,55); (1408530037785383,54); (8442212834225541,57);
  (4732826140944485,57); (2354801970046921,56); (2392856887524381,56); (4801512699557455,57); (2384201703663587,56); (4705910069785287,57);
  (4723328804156153,57); (4684064859641115,57); (2310602095785039,56); (1162865759528475,55); (4561149373042763,57); (4547989591598609,57);
  (8959304902168565,58); (4385853634481665,57); (4372255825774355,57); (4302409113209931,57); (2137840987078479,56); (8307879929902571,58);
  (8214749622897703,58); (1017666517369793,55); (994672685720353,55); (3915893795846289,57); (7777095936698239,58); (7655295718580723,58);
  (1905770513795837,56); (7392655230799521,58); (3704620453248961,57); (904535457536901,55); (7168397695848891,58); (1765060678427361,56);
  (6911632766596949,58); (3434222961290775,57); (3391405752848587,57); (3326169648849899,57); (3311708685682861,57); (818128785224537,55);
  (6413245221190291,58); (398559163471463,54); (196276509259871,53); (6276578550146393,58); (1551354061496591,56); (6222383590112765,58);
  (6164682072744733,58); (6025780670332687,58); (2983349263612685,57); (748487737853031,55); (2958239419068921,57); (718060733287947,55);
  (5823086717863911,58); (1456070110244025,56); (5823901157445525,58); (6003565411062061,58); (1500035131091197,56); (3089032034827781,57);
  (1542718448310507,56); (6160953413359417,58); (3167416667957039,57); (3159861113761099,57); (6490465139519787,58); (6469032495758613,58);
  (3317910076873955,57); (3303340229358743,57); (6768440647198771,58); (6729898234812429,58); (3442623103355405,57); (1708810570514245,56);
  (6982425242461425,58); (7125996299918887,58); (881917400570721,55); (7187453562933265,58); (7314249999948429,58); (7435083006708729,58);
  (7327241170550037,58); (928833544087435,55); (7525694246937555,58); (951428208502529,55); (7686910466720871,58); (7751141002866993,58);
  (7803058907003389,58); (7841561235654179,58); (7865508112436343,58); (2032327031889133,56); (4062399519511565,57); (1012781039426883,55);
  (8328742559043613,58); (8270862916087073,58); (8468403157636673,58); (4185378274211355,57); (4267554765678699,57); (8683566647564827,58);
  (8521021101807453,58); (8630824926115671,58); (8722366874320127,58); (8795084969361939,58); (4424286215625591,57); (8882601535595327,58);
  (4448574538700337,57); (4607412233530025,57); (6671668037983187,57); (8473188866276961,57); (585815956248613,53); (2530356365139471,55);
  (1381953195708493,54); (3037972347476861,55); (3348616475995195,55); (464106461667433,52); (4082642448512953,55); (2247586978983307,54);
  (4926473739979811,55); (5374188106018741,55); (5836351420488243,55); (6324245763994885,55); (6821673867110733,55); (915971467886407,52);
  (1960450989868551,53); (4181568760995421,54); (4450094211971087,54); (4721169797068409,54); (4994656159633409,54); (5274098178810007,54);
  (5555247023705247,54); (2919019919297057,53); (6122410846864615,54); (200348692883209,49); (6698314379507149,54); (873992125572135,51);
  (3641945025689281,53); (3789540938394027,53); (3937473683602185,53); (8171457235310585,54); (8470462501104197,54); (8769819124060793,54);
  (4534751818651691,53); (1171381752646291,51); (604450796823599,50); (2493590829186963,52); (5138039338584489,53); (1322374960054371,51);
  (2720433517077541,52); (5592131036089089,53); (2871640589249397,52); (1473686543382767,51); (1511500202034475,51); (774675415969993,50);
  (3174087950135531,52); (6499009835444213,53); (1662448891515361,51); (849995660402449,50); (3475004445078239,52); (7099657418006365,53);
  (7248906016041335,53); (7399885506101421,53); (7554696933848541,53); (7713238925401711,53); (7875686136567751,53); (8042103871653539,53);
  (8212551827191119,53); (8387083425872639,53); (8565860604961705,53); (8673303310441829,53); (8722040653059325,53); (8754439950312255,53);
  (8779093339937975,53); (8798355299786151,53); (8814886883836509,53); (8828889769927541,53); (8841053277371473,53); (8852034598313171,53);
  (8862325168546039,53); (8870996073795675,53); (8879585359454971,53); (8887005979044823,53); (8893418508423243,53); (8900739004650235,53);
  (8905968286081825,53); (8911762072990245,53); (8917810592516435,53); (8922449857026089,53); (8927284851408823,53); (8931594141392593,53);
  (8937086302018875,53); (8940257246304265,53); (8945431737097645,53); (8948848578782109,53); (8952146428131709,53); (8955618892911589,53);
  (8959561534956681,53); (8962676112477635,53); (8966777534348739,53); (8970494937615159,53); (8972318012929193,53); (8975803351320271,53);
  (8979476481125725,53); (8981737428921911,53); (8986325718791663,53); (8987979125636981,53); (8992328316721011,53); (8993956663796069,53);
  (8996720922478503,53); (9000783003210111,53); (9002423341752085,53); (1,0)].

(* color_maps.hpp:127 *)
Definition kindlmann_g : list (Z * Z) := [
  (0,0); (8447280504795161,63); (1993543004379101,60); (5787338143534077,61); (7367526961731411,61); (8588190822248127,61);
  (4951307670095061,60); (1395791673415905,58); (6195746369116147,60); (3427733374013039,59); (1894755602775177,58); (8290620953141939,60);
  (8953508612948571,60); (4820079898489103,59); (1292066621923039,57); (5506072937049095,59); (2905460339495237,58); (6141781633590205,59);
  (6470164162689563,59); (6761666125538871,59); (7070730043345085,59); (7393625821755143,59); (3845127071398999,58); (3986714381971665,58);
  (2085333217970843,57); (8641951689643641,59); (4486753505769165,58); (1166813781858903,56); (4834618791881839,58); (4986401448337873,58);
  (5175296613399701,58); (5344608040988219,58); (5519646730196401,58); (178068543062895,53); (1469447877196577,56); (6055759213253789,58);
  (6259390074009503,58); (3212834293945967,57); (6612175885921793,58); (848169499090147,55); (6973770391148543,58); (1785700442555471,56);
  (7321959276154729,58); (117332823833527,52); (3834409985079235,57); (3915993272956557,57); (3998733726555433,57); (4082150151975619,57);
  (4147570339163395,57); (1057869943186261,55); (8615430024521087,58); (8773169111689115,58); (4485093262862457,57); (1150213296788895,55);
  (5000303718026097,57); (6770489813895863,57); (8640419526861385,57); (1315171258574129,54); (1549510838874819,54); (3562862409455937,55);
  (1005300671537805,53); (4467972925504641,55); (4902403568348467,55); (5325091036362235,55); (5731955629907871,55); (6125459761434731,55);
  (6503895053230327,55); (6867926732309873,55); (3609374630545513,54); (3777901893006257,54); (3940185650084235,54); (2048116621060447,53);
  (4246789955070517,54); (4392050489208039,54); (4532315871462625,54); (4668036238093235,54); (2399761663239073,53); (4927081044933201,54);
  (5051011698060579,54); (5171668273067837,54); (5289184094439143,54); (5403976817816403,54); (5516136561820349,54); (2812979409540601,53);
  (5733652040446835,54); (5839263903929803,54); (1485772503621741,52); (3022647716733413,53); (1536462762444707,52); (6245056398524137,54);
  (3171521543699271,53); (804964798323307,51); (6535389388810939,54); (6629927056416113,54); (840455692725813,51); (3408191564432377,53);
  (6908462117253975,54); (6999964053155407,54); (1772670870706193,52); (7180665755312747,54); (7270252136663997,54); (459969188492931,50);
  (7447858933242323,54); (3768085776021151,53); (953071766637777,51); (7712730196447503,54); (7801279913630309,54); (7889557060375891,54);
  (3989107673970247,53); (8066915186060461,54); (8155304495012749,54); (8244056163948037,54); (8332472853015291,54); (8421239617689045,54);
  (8509647713301657,54); (8598393880899503,54); (8686758527723453,54); (8775449635106677,54); (8863737287236609,54); (8952340293040851,54);
  (141258107964779,48); (4564315149504087,53); (2304260408814401,52); (1163124904439789,51); (2348217096211237,52); (2370160636663149,52);
  (4784349480191409,53); (2414066709848093,52); (4871860913444829,53); (2457764649837957,52); (1239784021389181,51); (5002678954399741,53);
  (2523077886542043,52); (1272391149935607,51); (5132903691791541,53); (1293992729208609,51); (5219165295936419,53); (2631143012363111,52);
  (5305129131433829,53); (5348099482866601,53); (673848719714613,50); (5433608513734309,53); (5476145991042243,53); (86228242311983,47);
  (5561201446864809,53); (2801757515307097,52); (2822878397318865,52); (2843964495969491,52); (5730034394657113,53); (5772076371671899,53);
  (1453514748308085,51); (5855776199233945,53); (2947480116430421,52); (2967093729624919,52); (5974525505686823,53); (1503778969916749,51);
  (1513841595007135,51); (3047648859738287,52); (6134880842398813,53); (3086937468662005,52); (6212679492457359,53); (6250843592481531,53);
  (6288556174759077,53); (6325794235231041,53); (99414620057483,47); (6398547805528999,53); (6434022664994099,53); (3234470460293711,52);
  (6503284025324103,53); (6537034210973841,53); (6569966245149023,53); (6602273997245065,53); (3316971149740497,52); (6664751609240745,53);
  (3347447961683213,52); (840545336269275,50); (1688285024583887,51); (6781017736454945,53); (6808385693981285,53); (427165133085553,49);
  (3430185569425679,52); (860647010065377,50); (3454622935086393,52); (866571809561151,50); (6954973020594481,53); (3488313050190937,52);
  (437345629471203,49); (7017507832720409,53); (3518454222060685,52); (3527609551512647,52); (7072950298393943,53); (7089772609877141,53);
  (3552926697628281,52); (890149215625699,50); (3567897522822911,52); (3574759926572135,52); (7162520378059811,53); (7174671565322853,53);
  (7186239160016471,53); (3598488434086265,52); (3603453979550167,52); (112754111914769,47); (7224835623153289,53); (7232740866139717,53);
  (3619992474920063,52); (7245891265411699,53); (7249730469800211,53); (7251513021059759,53); (7251036403600623,53); (7248162386772631,53);
  (7242744925127445,53); (7234629745728629,53); (3611824535796039,52); (7218765197715897,53); (7227979563335639,53); (3622725161427577,52);
  (7268312332159507,53); (7295253631818611,53); (3662586041159635,52); (3678808118170575,52); (7392140624207485,53); (3714182940997557,52);
  (3732995123697861,52); (3752542795411499,52); (3772579005270777,52); (3793183554096481,52); (7628587285623927,53); (479453494518271,49);
  (3857532492070991,52); (3879638880497579,52); (7803916409799819,53); (7849364402304407,53); (3947581213011533,52); (3970729541772837,52);
  (7987771303991701,53); (2008746213796581,51); (1010242041845175,50); (1016198113857555,50); (127773054554915,47); (8225508075486599,53);
  (8273584638302227,53); (8322023994917203,53); (4185167995442095,52); (2104715091318215,51); (1058496095246283,50); (8516730385024659,53);
  (8565513084927211,53); (8614710551461123,53); (8663363560885317,53); (8712789463334867,53); (8761563676834521,53); (8811029664923839,53);
  (8860218338950333,53); (8909088234017893,53); (8958539846337589,53); (1,0)].

(* color_maps.hpp:130 *)
Definition kindlmann_b : list (Z * Z) := [
  (0,0); (2313956027697295,57); (4758890344249577,57); (7195078728327789,57); (2326470180242861,55); (700482711118239,53);
  (3232497881378175,55); (3634006775327233,55); (4043709311699655,55); (4479380132509165,55); (154430357461127,50); (5408029725706925,55);
  (5866427169496395,55); (6314757638565409,55); (422160355880233,51); (898474552315429,52); (3808389338677835,54); (1004531777762993,52);
  (4224376458128159,54); (2214290990561253,53); (4628125116462731,54); (4824519913716125,54); (5025991826791743,54); (2616269822317007,53);
  (5439592235504851,54); (706732869406993,51); (5870716306082697,54); (1522497894946975,52); (3156980046356135,53); (3271277487946985,53);
  (3385328903329747,53); (7003063389288505,54); (7237076056810957,54); (7472473328032963,54); (963628263450163,51); (7946500165470535,54);
  (8181932826957139,54); (8420504327437791,54); (8656498052337991,54); (8892407260603371,54); (1140645787830945,51); (4678673143610451,53);
  (2396464000563425,52); (2452609924774885,52); (5016899568781907,53); (2563210074956153,52); (327105932746479,49); (667331878813941,50);
  (5442751789014157,53); (2771480819656809,52); (5642970089146583,53); (5743448798739609,53); (5877717933105997,53); (6013390727151789,53);
  (1534317556585627,51); (3084530763575257,52); (3093181023799297,52); (6192233099793103,53); (773352966189771,50); (3085200869926591,52);
  (6141892178413973,53); (6104677608198305,53); (6059242729561045,53); (3002368307505165,52); (2972945247638291,52); (2940239777575063,52);
  (5811731737414077,53); (1435023406169205,51); (2832371527557695,52); (5588633477261269,53); (5510876115131619,53); (1358543599950779,51);
  (5356423788827477,53); (5279052496325133,53); (5203341156735919,53); (2564170119417643,52); (1263553580780139,51); (4982085559596973,53);
  (2455520637939499,52); (4843018350590563,53); (4775281120291545,53); (4710555466065289,53); (2323545344576085,52); (35826052525249,46);
  (565805841044789,50); (8936917230060923,54); (8824998556782369,54); (8717016427362841,54); (8611591442453197,54); (8509960090762087,54);
  (8411975971045011,54); (8316427058834363,54); (8224340860741689,54); (8134620566989933,54); (8048159284614985,54); (3981988726226205,53);
  (7882836935185707,54); (7804563058570315,54); (7728354834439193,54); (7654218964977693,54); (7582661854425553,54); (7513502748678549,54);
  (7445801628147133,54); (7377728781367321,54); (7306452750325273,54); (3615889207612903,53); (3577055297840745,53); (1768286748505815,52);
  (6989020232194525,54); (1725401258892427,52); (3405527224056531,53); (1679271413635989,52); (413755856668335,50); (6519513419833093,54);
  (3208013466319463,53); (6308781594774713,54); (3099376195760899,53); (6084793183626397,54); (5968178671930195,54); (5847461939959501,54);
  (5724225776258945,54); (5597707620239057,54); (2733413158529329,53); (2666823604503453,53); (5197174034088453,54); (5057406282291037,54);
  (4912917139491427,54); (4766470827801447,54); (4616736083899871,54); (4463720260712147,54); (4307433421152107,54); (518486088209767,51);
  (498137846684623,51); (3819096337489033,54); (3649894820762287,54); (6960045756815111,55); (6609393319133875,55); (195394128762625,50);
  (1473976772350421,53); (2763849730802055,54); (2580454256823299,54); (4782248045172545,55); (4406867883483775,55); (2014207432118175,54);
  (3637820013015391,55); (1627605947268621,54); (359141413918731,52); (77931800543115,50); (8481653457964155,57); (7029541568376477,57);
  (1410771593635965,55); (4531612765712247,57); (1139853538365835,55); (2287984120438291,56); (4625914898534463,57); (1146952614555025,55);
  (2315360130996083,56); (4660478175707525,57); (2337841768191579,56); (2383233663804291,56); (4749288485209769,57); (600845397408905,54);
  (18929704274181,49); (4865656753356297,57); (4864372112391189,57); (4937896093409469,57); (4989685290264277,57); (2509200142506767,56);
  (5022710530975019,57); (5001296244678327,57); (1263690136077235,55); (1270456819531077,55); (5081201504712063,57); (5156518731072961,57);
  (5203601909754653,57); (163162325565315,52); (2604031547135591,56); (2636008492505645,56); (2597418428223311,56); (1326385281226845,55);
  (5272794638861825,57); (1329691534102845,55); (2665625662444339,56); (663648245347427,54); (5367998094681673,57); (5392389619105331,57);
  (84084157764543,51); (2726920891533011,56); (5370364656403887,57); (2746417283710963,56); (5457664523007697,57); (5509302987081149,57);
  (2762469358705825,56); (5503846600775111,57); (5445347997138785,57); (1369435962839407,55); (5473804541793895,57); (5564303476125107,57);
  (5487183884370389,57); (2752929383931999,56); (5623508107243173,57); (5570926809181503,57); (5618961967285637,57); (5632260112427983,57);
  (701312360573791,54); (5658765077406859,57); (5861258679898115,57); (5941992111767107,57); (6042196201679573,57); (6163009962585595,57);
  (6305098597969779,57); (6468629768511891,57); (6532170634560009,57); (499207114703125,51); (189063750252133,49); (3705654371960927,53);
  (8434175952454453,54); (4630192669994835,53); (2487144195743997,52); (5270519381105325,53); (2765118214179631,52); (5760775884401683,53);
  (186482416765487,48); (6156341191419417,53); (6328194036955339,53); (6487345072194641,53); (3317731988397087,52); (846461667838343,50);
  (862654371061329,50); (3510951893839931,52); (222973354648135,48); (28295070747815,45); (7346052363745413,53); (7444017749147841,53);
  (3768205492670621,52); (7626822416470185,53); (963988053502505,50); (3897596531903715,52); (7875627859579095,53); (3976645753200467,52);
  (8028261579146283,53); (8101725767903219,53); (1021578459671009,50); (2060534477858673,51); (1038926210358331,50); (2094568352737839,51);
  (4221938971096895,52); (2127339842729231,51); (8572550189337031,53); (8636775037070969,53); (8698765525744209,53); (8761835053056527,53);
  (8823809947978157,53); (8884707622008085,53); (8946738036708879,53); (1,0)].

(* color_maps.hpp:150 *)
Definition extended_kindlmann_r : list (Z * Z) := [
  (0,0); (5131210558918883,58); (5091491339248941,57); (7414640738015237,57); (2326095384051893,55); (682709187230647,53);
  (1542189811917369,54); (212187957610869,51); (3648373531858015,55); (961133783291897,53); (249000603090555,51); (2043793817139789,54);
  (4160233573975955,55); (4204821201994367,55); (4222329192142995,55); (4214861577393011,55); (261452909133677,51); (4129689011722311,55);
  (1014290484018025,53); (3968533227204605,55); (483608558504809,52); (1880702263098265,54); (3639673230088769,55); (109592710930663,50);
  (1683100323427903,54); (1608716482092873,54); (1535736491014899,54); (732582059573633,53); (2799661259604557,55); (2685529966131621,55);
  (325791038724845,52); (2547502323737817,55); (2448359031755849,55); (7919625691548459,57); (4715799463227043,57); (3248656045369753,57);
  (6473097475082399,58); (6437652995221245,58); (1593665295499763,56); (6291359703228005,58); (3102780857024843,57); (3018675787377705,57);
  (5896058011091499,58); (2889269297709147,57); (5668231921200461,58); (5536207247533537,58); (1335741764432621,56); (2607655068741323,57);
  (2545277829340927,57); (4987210633584417,58); (4832330363021777,58); (2359183817148995,57); (2324000934777697,57); (1134462932148843,56);
  (8772465420783277,59); (8546909135494613,59); (4195432939984937,58); (8295435163808495,59); (8077321329299581,59); (7895521144537387,59);
  (7738740276267865,59); (7595371224422817,59); (3726714183319093,58); (3650231401814811,58); (3665130452821149,58); (7456679690697253,59);
  (7581512823260577,59); (7704857945646737,59); (7826759741241621,59); (7947177674367767,59); (8065951211336885,59); (4091381524127039,58);
  (8297101023279243,59); (4204109780360345,58); (532193855139197,55); (4414631839688049,58); (8926994817169643,59); (2253958653923093,57);
  (4546679007243243,58); (143073970507609,53); (4718711715470747,58); (2366950974976833,57); (2429833155065753,57); (1212744739422303,56);
  (2477324259672455,57); (2522838763922863,57); (1280471123507465,56); (5181041220397817,58); (5220950627304885,58); (2619769298752721,57);
  (5383833816147569,58); (5357775885774579,58); (2730534116201691,57); (5543944430375207,58); (6895238513493483,58); (4712037715222273,57);
  (5806826962294297,57); (6413871984074139,57); (7238954119874835,57); (8288651353535025,57); (2400584117782613,55); (1384942801676987,54);
  (793412431031547,53); (3606264632057311,55); (2036536733724977,54); (4558255900102375,55); (5067217929206021,55); (5588061031822181,55);
  (3062958340336879,54); (6671605590478127,55); (903028406681111,52); (973502262817355,52); (1044544920111285,52); (4466458584933129,54);
  (2379025487647027,53); (5050528859073689,54); (41748078355491,47); (2819510069654071,53); (1483620983638507,52); (6231202799407119,54);
  (1632175651305537,52); (3412810662898457,53); (7121889800758829,54); (7418149855673015,54); (7713419640215435,54); (4004078616082125,53);
  (8301610848055463,54); (8594066535967771,54); (8886661704676451,54); (4594879998006259,53); (4752273805437285,53); (2457918673645331,52);
  (1271438921477717,51); (2631035610222593,52); (5445091634531393,53); (5634830896338007,53); (1457770248817707,51); (377124046605679,49);
  (3121896089094635,52); (1614841277311379,51); (6681455774108685,53); (3454479197059267,52); (3570419344472513,52); (1844345333478217,51);
  (1904201968220883,51); (3929063687356277,52); (8100238902344639,53); (2085152677409763,51); (8578457147889793,53); (8622864101260965,53);
  (8641293180265737,53); (8655020888710097,53); (8666327968438985,53); (8675414271963075,53); (8683802902685563,53); (8690860392843819,53);
  (8696520544656139,53); (8701483977344209,53); (8706353510473653,53); (8711327627278765,53); (8716515909683267,53); (8723513212716807,53);
  (8730562706067871,53); (8739271801069189,53); (8747953841268769,53); (8757085061633919,53); (8766043943574727,53); (8775230199993579,53);
  (8782804396162429,53); (8785754818995703,53); (8787586118704699,53); (8789606379637647,53); (8792000938836727,53); (8793829661516787,53);
  (8796330528990047,53); (8797430805189567,53); (8799436097711373,53); (8801348109102969,53); (8803257153194315,53); (8805245019918819,53);
  (8807385741798529,53); (8808676986139757,53); (8811324357394177,53); (8813251512966961,53); (8814530681935501,53); (8816270520106869,53);
  (8818512039665197,53); (8820270964876915,53); (8821608216139169,53); (8823583249301215,53); (8825231584272585,53); (8826607256576663,53);
  (8829111848106615,53); (8771287110496389,53); (8648237604557543,53); (8537364827910283,53); (4218304201163281,52); (4172857925733997,52);
  (4132593466938245,52); (8192369072026927,53); (2032137017976991,51); (8072671469278103,53); (8024448968351001,53); (498932946544743,49);
  (993404900855531,50); (3959197430175835,52); (3947738019030747,52); (7877648020229195,53); (7865220461572181,53); (7857384616506481,53);
  (7853899909536755,53); (7854520386260667,53); (7858997686126491,53); (7867084078522787,53); (1969521227559883,51); (7892229621809567,53);
  (3954642441400949,52); (3964083461735137,52); (1987385717280007,51); (7972784243366747,53); (7997705435885161,53); (125377002761249,47);
  (4025937645674339,52); (2019983926508793,51); (8102595697069923,53); (4062197335830533,52); (8143579759248999,53); (2039899489660759,51);
  (2043281566468823,51); (2046048302917185,51); (8193538500436745,53); (2050271833896999,51); (4103806319359669,52); (64168250076379,46);
  (8219214326175547,53); (4112471506903873,52); (4115522108863537,52); (8237925431559989,53); (4122920089540033,52); (8255244268823121,53);
  (8266466667977913,53); (8279417636841461,53); (8294580526503663,53); (4155835050225285,52); (4165871136699049,52); (8354498581886771,53);
  (8380665937020665,53); (8411137981520715,53); (4222757865384869,52); (8486250616375973,53); (8533040853965347,53); (8589598730010845,53);
  (8658419118445181,53); (8743092162595239,53); (8854065218603351,53); (1,0)].

(* color_maps.hpp:153 *)
Definition extended_kindlmann_g : list (Z * Z) := [
  (0,0); (8071287200308925,63); (7848180437102199,62); (5727864368276531,61); (7436031439809441,61); (4454349917340057,60);
  (5148368341179975,60); (2911266315780389,59); (6554235092572397,60); (918356710518537,57); (8197297554974047,60); (1124376713367345,57);
  (2464703805487239,58); (5355383541237681,59); (2897692382383421,58); (386912610413265,55); (1646322780253561,57); (6984762212203713,59);
  (7391085610436031,59); (7763986162018271,59); (8139275560689183,59); (2126782013122899,57); (4422399428876883,58); (4599465075725751,58);
  (4780290068080099,58); (617347187141713,55); (5113492473193403,58); (2639565220435113,57); (5432125760327835,58); (2784782533851943,57);
  (5737350811780469,58); (5867852394227193,58); (6018473452016481,58); (3103130370328143,57); (6413593333308771,58); (4336061323218545,57);
  (6270454357768309,57); (8302773461884613,57); (2570610381341451,55); (1522684980507771,54); (218504305273001,51); (245001564776375,51);
  (2159043472141643,54); (2345404690804695,54); (2519736327982129,54); (2682914616982489,54); (88623679489261,49); (5960109586296049,55);
  (1558053403344529,53); (3245041288190401,54); (841933502751277,52); (6969843852253615,55); (899312151597387,52); (926351301598889,52);
  (3809956290078587,54); (1955619677226185,53); (501205155267487,51); (4105504651770885,54); (2099671750845225,53); (2145623841273977,53);
  (2190727765403633,53); (4470179825644529,54); (569701381037715,51); (4643920236722459,54); (4728983046521765,54); (2406829966903041,53);
  (4898353192229217,54); (2491518511252341,53); (5067685941218479,54); (5152274861496471,54); (1309194794229901,52); (5321174848365655,54);
  (5405438493414279,54); (5489547477916103,54); (2786740004649611,53); (2828437248684021,53); (1435097238134871,52); (5823667698796341,54);
  (5906693257947665,54); (5989449472566411,54); (3035781895631173,53); (3076867777804559,53); (6235234601484981,54); (6316775998573493,54);
  (1599405294012721,52); (6478128237679961,54); (3279146726611623,53); (6638115295160325,54); (6717594600759727,54); (6796734771870429,54);
  (3437579397409715,53); (869205111223887,51); (7031426276463835,54); (7108916248356511,54); (7183018553533305,54); (1813546508416103,52);
  (7326251087237563,54); (7400435162862911,54); (934204734672663,51); (1886428189455677,52); (7616126731715221,54); (3842573982963353,53);
  (7752659532673661,54); (7818552666174535,54); (3941167766850251,53); (7944307844211979,54); (4001998264304427,53); (8061713359645023,54);
  (8117005281579625,54); (8170194461191599,54); (8221222821337541,54); (8269670091427037,54); (8315869286970585,54); (8359425229705635,54);
  (8400325510328991,54); (8438909852118209,54); (8475160251694109,54); (8508739017366501,54); (8539982201618267,54); (8568584820253893,54);
  (8594585214842151,54); (8618308475819321,54); (8639768624403273,54); (8658735106370219,54); (8675507385449895,54); (8689897169756781,54);
  (8702180886452601,54); (8712216303000593,54); (8719736250283391,54); (8721256598887687,54); (8716226356067465,54); (8703802567680599,54);
  (8683226532770271,54); (8653678944395923,54); (8614274124486765,54); (8563997141993177,54); (8501910133706271,54); (8426802660321009,54);
  (8337165004118387,54); (8232371128354235,54); (8110192163883705,54); (7969722917395049,54); (3905009171673445,53); (119195551120623,48);
  (7424752073114239,54); (7197331576264069,54); (6944839093819111,54); (6668176708397589,54); (6365622962243193,54); (6423451395322871,54);
  (1633004530432059,52); (6649596554714179,54); (6771823140311123,54); (3449126972636957,53); (1756527158422475,52); (7156410553841089,54);
  (7289101901220257,54); (1855712975424125,52); (7556561908892311,54); (7689304979903377,54); (7815131011166205,54); (7934005977455061,54);
  (8048295698670241,54); (8155114121123745,54); (8257416495627245,54); (8355035146231789,54); (8449300345995741,54); (8540047114544935,54);
  (8630106019671639,54); (8723776949570449,54); (8816486266212163,54); (8906685657530707,54); (8994326605480733,54); (4540418390285121,53);
  (1145590223733583,51); (4624444512743445,53); (2332600641890613,52); (18380318558687,45); (4744928047755167,53); (4783906876828887,53);
  (2411153539950537,52); (4860877365201341,53); (4898159574239769,53); (2467823178709745,52); (621670396085421,50); (2505295674625211,52);
  (2523676330194295,52); (2542211546069271,52); (2560918243475105,52); (1289717038943335,51); (1299076934498293,51); (2617096380784083,52);
  (5270948545259001,53); (1338653464066569,51); (2744365299800175,52); (5611902908251915,53); (2863313224587347,52); (5833773021480555,53);
  (5933507919654657,53); (3014099856693235,52); (3058602053806505,52); (3100762290372411,52); (3140768526000461,52); (1589515674531703,51);
  (3215916711522419,52); (6502118443398091,53); (821201959301185,50); (3317479164700385,52); (6697858383557923,53); (6758901848301999,53);
  (6818212358693479,53); (3437952256383363,52); (6932084265234365,53); (436678075141473,49); (3520343746109823,52); (1773318579339305,51);
  (893085594904315,50); (3597881995211739,52); (3622892167720149,52); (7295185206296351,53); (7344009542021941,53); (7392295894245331,53);
  (7440079768828907,53); (7487829955587661,53); (7537430964661657,53); (3793612016090873,52); (954711530499945,50); (7689252077438287,53);
  (3870714265705713,52); (7794398133385837,53); (7847674948131087,53); (7901662201885183,53); (3977933909904167,52); (1001266564468661,50);
  (8064325865009655,53); (8118517421775525,53); (4086208148765847,52); (8226216192728181,53); (8279653247628437,53); (8332724360738801,53);
  (2096326166884013,51); (4218634477320033,52); (8488596548138367,53); (8539238662477813,53); (8589104667038755,53); (8638146291780951,53);
  (8686231539934401,53); (8733154862019429,53); (8778899380452061,53); (8822941983687421,53); (8865208655211389,53); (8904784027252763,53);
  (8940876559652337,53); (8972337618149355,53); (8996126186180795,53); (1,0)].

(* color_maps.hpp:156 *)
Definition extended_kindlmann_b : list (Z * Z) := [
  (0,0); (4689189628308109,58); (2429294621287899,56); (7392285863489613,57); (2398162887890583,55); (2896927797106209,55);
  (3358167529141179,55); (3799632185215807,55); (4270427661980433,55); (4781976047842773,55); (20843356531201,47); (5899943344712669,55);
  (6456233215767221,55); (7008976086790409,55); (1888757222147163,53); (4049912655152391,54); (539780261783805,51); (2290540766591303,53);
  (4837013299607545,54); (5087007587273833,54); (1331855292866281,52); (694921620163539,51); (5791700907137017,54); (3010636302953925,53);
  (3123704198484197,53); (6472093404998165,54); (3344762769623827,53); (6901783803515787,54); (7108447626903867,54); (456825300393629,50);
  (7498363551268675,54); (7684420918415367,54); (7876369934900357,54); (8127055596623325,54); (8401086548480225,54); (8505868986406599,54);
  (8486706136401157,54); (8428162571711389,54); (8334944476273173,54); (8212306573281419,54); (8065772644930425,54); (7903303947466101,54);
  (965956777549735,51); (117871657782979,48); (3678095548493659,53); (1792205126591229,52); (3492525605107789,53); (6803879509227669,54);
  (828511041029129,51); (6458201669236497,54); (3148104380205419,53); (3070275410840511,53); (1497842207351363,52); (2925024448882017,53);
  (5716292119647057,54); (2794300167632349,53); (5466855802028299,54); (5350904061433711,54); (5241427222773597,54); (5137169089745837,54);
  (5037906305783869,54); (4943401467638491,54); (606675792182821,51); (2383832199345409,53); (585662160447613,51); (2300189767560641,53);
  (2255282860932119,53); (4415818307938799,54); (2158050937912755,53); (4211383352435017,54); (4101632267867875,54); (1993410527031591,53);
  (241682837027255,50); (1870962311026015,53); (3611802223080519,54); (869346629769385,52); (6674217686274367,55); (797923822056895,52);
  (6082307950540571,55); (1442750949739271,53); (5452495631970139,55); (2560620554735583,54); (4783627772468917,55); (4432993025018797,55);
  (2038583208732965,54); (3712997422116505,55); (835271016666513,53); (2962249966655227,55); (2577648068406751,55); (8755707707859543,57);
  (7228872413545691,57); (5679415779784755,57); (8636910033112081,58); (1616291717260713,56); (1374833222891031,56); (347156266854729,54);
  (2828557257872967,57); (5650820440809073,58); (2858892644655373,57); (5760080235620607,58); (5865724571898691,58); (1485492671114415,56);
  (374080341391463,54); (2996095997040575,57); (3028093964243447,57); (6079577558313793,58); (6158661039045027,58); (3096604588087419,57);
  (1570609835520427,56); (3161763318838127,57); (6313387080894325,58); (6355773695086477,58); (198247698223657,53); (798092505125241,55);
  (810004082862501,55); (3259536457192377,57); (3249725085404027,57); (3267376259238515,57); (3255057536385871,57); (1635645299606153,56);
  (6635163948133269,58); (6668790119897855,58); (6641946252229717,58); (6678947343855023,58); (104004309516429,52); (6701969483463379,58);
  (1672369965748761,56); (6750658736925247,58); (6777181233134527,58); (3566419802158411,57); (918484779399669,55); (7561117451980489,58);
  (7777259634222537,58); (4062641843555129,57); (4176715184294787,57); (4294196746301263,57); (8947833064734471,58); (145337954936823,52);
  (595225148931513,54); (1244093990995207,55); (5110850728685973,57); (2634775419424143,56); (1373060942569701,55); (5651715068039677,57);
  (5837314195607223,57); (6020775643845081,57); (6179974687664319,57); (6384712313227771,57); (6559069706877879,57); (944420697729599,53);
  (2647327743754567,54); (807022394076419,52); (3700532123250145,54); (4098435167421619,54); (2218668652858437,53); (4731245203246911,54);
  (4988960359441965,54); (162988159971385,49); (2707727052577413,53); (1399897357466053,52); (5845970066688669,54); (6118833969667837,54);
  (6423498676097097,54); (422597939096515,50); (3563478277932183,53); (469427051130613,50); (3953789780367951,53); (8311824762399029,54);
  (8721949995342043,54); (4568718459757157,53); (4776199045888653,53); (4982271943829643,53); (1296639833308457,51); (2694518773962785,52);
  (5589299801581783,53); (1446860546104499,51); (5983157706372941,53); (6176465759540473,53); (397956424182417,49); (6555629866691145,53);
  (6741426497413791,53); (6924340551815559,53); (3552501510243471,52); (7282671896576927,53); (233036761831819,48); (7628952477191669,53);
  (60922112889845,46); (995465127008187,50); (4062938285911311,52); (8285198574674971,53); (8440824594829821,53); (8592618793761401,53);
  (8744408569813751,53); (8833081180909663,53); (8838993268778827,53); (8845331360887065,53); (8850511739484165,53); (8855033976026097,53);
  (8860609808367831,53); (8864100745651681,53); (8868360642658659,53); (8872571646129615,53); (8877125541359337,53); (8881037539731805,53);
  (8883197131940857,53); (8886671640653889,53); (8890376876818821,53); (8893110336873537,53); (8896589031558579,53); (8899553938078001,53);
  (8902208618539167,53); (8904758547703629,53); (8907410976840015,53); (8910374699408011,53); (8912215501717473,53); (8914755676469727,53);
  (8918211017570953,53); (8919420766136167,53); (8921929933622215,53); (8924251524284117,53); (8926580526712365,53); (8929118026028487,53);
  (8932078332015961,53); (8934489023754021,53); (8936014960389533,53); (8937974419987991,53); (8940908360113303,53); (8942942482775569,53);
  (8945900074916869,53); (8948289936313803,53); (8951954385147457,53); (8953911777813033,53); (8956034147461255,53); (8958536037061837,53);
  (8961596652224021,53); (8963975465897651,53); (8967254376195479,53); (8968948772078309,53); (8970635984253971,53); (8971323051032141,53);
  (8971327605147837,53); (8971998345053049,53); (8972453585402219,53); (8973891160681019,53); (8974644101003283,53); (8975943554474727,53);
  (8977268024897565,53); (8978325301478813,53); (8980317112581211,53); (8981908062787309,53); (8984519626726753,53); (8987059131203505,53);
  (8990159109787205,53); (8994573560997219,53); (8999812523397183,53); (1,0)].

(* color_maps.hpp:176 *)
Definition smooth_cool_warm_r : list (Z * Z) := [
  (4143302719688739,54); (2112345933964057,53); (4306367043755403,54); (1097084690139583,52); (2235308356342635,53); (1138302451631513,52);
  (1159031547261541,52); (589921659261119,51); (4802957766719913,54); (2443442842925653,53); (4971162385354779,54); (5055792573843325,54);
  (2570390166640203,53); (5226129136554291,54); (5311841864138267,54); (168685025623175,49); (5484367746443299,54); (5571183839188891,54);
  (2829184880359977,53); (2872962826998771,53); (2916925577686277,53); (2961072703574577,53); (6010807069781667,54); (6099834333739483,54);
  (6189224931070339,54); (6278976146688247,54); (6369084829408201,54); (3229773701373833,53); (3275179937755491,53); (3320758926085723,53);
  (6733016543063117,54); (853106346799103,51); (1729253749520323,52); (7009503301441027,54); (3551154708348539,53); (7195426730356503,54);
  (7288848292430623,54); (922820853189273,51); (7476574733724603,54); (7570864111503885,54); (7665426752285607,54); (7760254157028845,54);
  (7855337542620645,54); (7950667850148643,54); (8046235753044739,54); (8142031665101265,54); (8238045748360477,54); (8334267920878255,54);
  (8430687864362995,54); (8527295031690623,54); (8624078654296287,54); (8721027749444003,54); (8818131127374747,54); (8915377398334285,54);
  (4506377489740683,53); (4555126050838765,53); (4603928408079703,53); (1163194625136841,51); (4701670184011543,53); (2375298617045713,52);
  (4799553349362575,53); (2424266077204139,52); (1224381800703953,51); (4946531980118353,53); (2497769953341649,52); (315284021284225,49);
  (2546769290100523,52); (2571257933659031,52); (2595734694719509,52); (327524517662601,49); (1322319408480845,51); (5338118484135883,53);
  (2693453915035831,52); (5435638627104535,53); (5484303791544243,53); (691612025373277,50); (2790704353308623,52); (5629834115477991,53);
  (5678165212683073,53); (5726394753599579,53); (5774515467984899,53); (2911260031042277,52); (1467600305172741,51); (5918151609163905,53);
  (2982881937706703,52); (751653831480745,50); (757568069659345,50); (3053849099397371,52); (6154684173623199,53); (6201495070906709,53);
  (6248123473495061,53); (3147280979841517,52); (6340803104920523,53); (6386839483491931,53); (6432663670165345,53); (3239134120906127,52);
  (6523645778998405,53); (3284394433773273,52); (6613690100071501,53); (3329171038744211,52); (6702737410494619,53); (1686717180256425,51);
  (6790728643686517,53); (6834309827157521,53); (3438802467788533,52); (3460303324950115,52); (6963307669234609,53); (1751425178038423,51);
  (1761944629497061,51); (886191731012033,50); (3565479743555941,52); (7172048244173841,53); (3606396477066905,52); (7253186478745167,53);
  (455826356739535,49); (3666445780221377,52); (3686094492988551,52); (7411106965306115,53); (7449638511866531,53); (7487776672741163,53);
  (7525514529722073,53); (3781422600178639,52); (3799880919490739,52); (7636257637731079,53); (3836162913771931,52); (7707959679143693,53);
  (1935788126002633,51); (7777897655336109,53); (7815035077327759,53); (7854253432397839,53); (246643902993413,48); (7930091056637851,53);
  (3983356699812863,52); (8002473313887925,53); (4018686050703671,52); (2017852746233181,51); (4052295557726359,52); (4068456789628093,52);
  (8168379404606363,53); (8198989568054579,53); (8228745000416951,53); (4128823296217981,52); (2071423800036711,51); (8312891649967537,53);
  (4169618371764643,52); (1045591407782987,50); (2097343992940591,51); (8413171625918631,53); (8436118970871195,53); (4229109374377155,52);
  (4239735850634965,52); (2124969643272617,51); (8519440115102009,53); (8538157087496801,53); (8556030262723315,53); (8573060428301607,53);
  (8589248389511183,53); (8604594971958073,53); (8619101024027499,53); (8632767419227879,53); (8645595058431835,53); (8657584872019257,53);
  (8668737821927261,53); (8679054903611617,53); (8688537147923867,53); (8697185622908081,53); (8705001435521061,53); (8711985733279417,53);
  (8718139705836871,53); (8723464586494881,53); (8727961653649451,53); (8731632232176909,53); (8734477694761211,53); (8736499463165199,53);
  (8737699009448091,53); (8738077857131351,53); (8737637582314943,53); (8736379814745945,53); (8734306238841211,53); (8731418594665875,53);
  (8727718678869251,53); (8723208345579617,53); (8717889507259339,53); (8711764135521685,53); (8704834261910541,53); (8697101978644277,53);
  (8688569439324881,53); (8679238859613395,53); (8669112517872705,53); (8658192755778607,53); (8646481978900055,53); (8633982657249443,53);
  (8620697325803721,53); (8606628584997103,53); (8591779101186089,53); (8576151607087441,53); (8559748902189857,53); (8542573853139803,53);
  (8524629394102199,53); (8505918527096413,53); (2121611080577043,51); (8466209918377739,53); (2111304630666243,51); (8423473411491551,53);
  (8400977930360897,53); (523608468384755,49); (8353749587316175,53); (1041127970498915,50); (8303561648176869,53); (4138683466913465,52);
  (8250443384947581,53); (4111397417835015,52); (8194425190304017,53); (4082669211685839,52); (4067769289811053,52); (8105029774026867,53);
  (252306755992395,48); (8041902088139213,53); (8009291788599027,53); (3987994844289203,52); (3971000126720365,52); (1976832004588911,51);
  (3935988794083223,52); (7835953637239923,53); (1949815227324657,51); (1940476054308953,51); (7723888442913185,53); (7685218536941513,53);
  (955737439805539,50); (475371029675289,49); (236416705043597,48); (7524099001291465,53); (7482235084969401,53); (1859937042496277,51);
  (7396643680639511,53); (7352927107626289,53); (1827151001915951,51); (907960000388883,50); (451135048847989,49); (7172052095458865,53);
  (7125359761602711,53); (7078089660764715,53); (1757561934298707,51); (3490919999074995,52); (6932872513401435,53); (1720837853681733,51);
  (1708320723847047,51); (423917075599595,49); (3365764335973001,52); (1669963914219313,51); (6627660598067047,53); (3287474993924503,52);
  (6521730376602557,53); (6468008372131449,53); (6413790639029079,53); (3179541949015473,52)].

(* color_maps.hpp:179 *)
Definition smooth_cool_warm_g : list (Z * Z) := [
  (2693142975937887,53); (344373057785521,50); (2816716521464807,53); (5756674280827155,54); (2939843852660769,53); (750308445323777,51);
  (6125007354470907,54); (6247299906838499,54); (6369337430850995,54); (6491111577950995,54); (6612613489383785,54); (420864615055499,50);
  (428422680195335,50); (6975390478341007,54); (7095706133680653,54); (7215699031537023,54); (7335358057250211,54); (3727335912223221,53);
  (7573628698265165,54); (961527102086761,51); (3905212055102957,53); (1982059579967017,52); (8045647014076847,54); (8162637604050547,54);
  (8279197358201059,54); (8395313415490263,54); (8510972797866237,54); (8626162421863981,54); (8740869109446607,54); (8855079598154965,54);
  (8968780550626809,54); (4540979281770183,53); (2298650044007943,52); (2326672969407711,52); (4709110057877783,53); (2382292825700375,52);
  (2409882955714779,52); (4874644019044415,53); (2464606573695215,52); (4983466464562159,53); (2518698568177035,52); (5090998328886933,53);
  (643032901389945,50); (2598592478627101,52); (2624878374521707,52); (5301971778005381,53); (2676911623777089,52); (675663046881355,50);
  (5456408393780643,53); (2753564277430787,52); (1389364532272131,51); (2803695204358669,52); (1414229677298155,51); (713254546352843,50);
  (1438684190101345,51); (5803013272806463,53); (2925429666247687,52); (1474567098759717,51); (2972616974278035,52); (2995874757568345,52);
  (3018904326112221,52); (3041702476983757,52); (6128532052537761,53); (6173183619420159,53); (6217353366674029,53); (6261035048167307,53);
  (6304222460785083,53); (3173454722806801,52); (6389089889100721,53); (200961178881057,48); (808988366432009,50); (407033221260115,49);
  (1638156407343019,51); (6592183328990309,53); (414449926299997,49); (3334833169741749,52); (209611880425755,48); (1686233666672615,51);
  (6781724218004263,53); (6817943283692643,53); (6853586377624017,53); (3444324036164433,52); (865390374988179,50); (6957005852910627,53);
  (3495145692618235,52); (877871801621539,50); (881881226906627,50); (3543256267546687,52); (7117357580208859,53); (7147580023822977,53);
  (3588587502730617,52); (7206137731731969,53); (7234463477094077,53); (1815536896152943,51); (3644592733348205,52); (7315572605835491,53);
  (7341304555308865,53); (7366376939892199,53); (3695392728273841,52); (3707262937551025,52); (3718797019455941,52); (7459985865516191,53);
  (7481697347276271,53); (937840569000345,50); (940382952946243,50); (942838847814645,50); (7561662326637311,53); (7579914631552415,53);
  (7597464151276071,53); (7614307418762803,53); (7630441046444183,53); (7645861726751589,53); (7660566232625557,53); (7674551418011511,53);
  (7687814218341863,53); (7700351651004235,53); (7712160815795695,53); (7723238895362907,53); (3866791577813965,52); (3780854954199,42);
  (121125932824531,47); (3880093468748341,52); (242736570605285,48); (1943551838640067,51); (7780095996762599,53); (3892617022754171,52);
  (973702430809219,50); (7793250231767127,53); (7786850170999843,53); (7770432244182365,53); (7753277319668179,53); (3867693867009629,52);
  (3858382952049207,52); (7697414326163079,53); (3838667787467183,52); (3828266151320357,52); (7635007238035313,53); (7612763185386461,53);
  (7589803023440019,53); (7566129704352991,53); (7541746252597287,53); (3758327881916277,52); (7490861403747061,53); (7464366406865377,53);
  (7437174075321615,53); (7409287777596941,53); (1845177736804971,51); (3675723540713989,52); (7321499739789085,53); (455679533923797,49);
  (7259569170325697,53); (7227593360281533,53); (7194948906882633,53); (7161639659131905,53); (7127669519140093,53); (7093042440410099,53);
  (3528881213031775,52); (1755458381751687,51); (6985259840032853,53); (3474022752928473,52); (6910194707080393,53); (6871711666080659,53);
  (6832600642822415,53); (6792865932585473,53); (844063982950599,50); (6711542794617369,53); (6669963112310457,53); (414236076791571,49);
  (6584989578188759,53); (1635401153757325,51); (1624406702491017,51); (3226530323627307,52); (6407910621359039,53); (3181090616746057,52);
  (3157938494011425,52); (6269002388698317,53); (6221561934681461,53); (24115469204647,45); (3062500705559733,52); (6075890278442283,53);
  (6026231155352967,53); (5976028451153529,53); (1481321635512751,51); (5874009765447243,53); (5822202413896225,53); (2884934364350997,52);
  (5717012893127875,53); (5663639025184551,53); (1402437792490385,51); (694419161432853,50); (5500449263903467,53); (1361260715604887,51);
  (5389137753138593,53); (2666368741276055,52); (5275845466125459,53); (5218464976072993,53); (1290149782054605,51); (5102250867851131,53);
  (5043422954478813,53); (4984117945364911,53); (2462169088863067,52); (2432042874724917,52); (2401681249086835,52); (592771247318751,50);
  (4680509437494467,53); (2309190893595867,52); (4555787575601203,53); (8985453908339717,54); (8858399284837757,54); (8730409778046029,54);
  (8601482857892547,54); (8471614872265185,54); (8340800942348195,54); (8209034846579413,54); (8076308891681871,54); (7942613768971597,54);
  (7807938393843995,54); (1918067431495667,52); (941949070925497,51); (7397889334932143,54); (1814784950767445,52); (7119320812463639,54);
  (872300742278355,51); (427272819451605,50); (3346582092005115,53); (6548764431289397,54); (800390246577733,51); (1564046775545229,52);
  (1526975876718777,52); (1489551837381509,52); (1451756546971923,52); (2827138846290959,53); (85935439326287,48); (2671845228900095,53);
  (2592811114906663,53); (2512761373976865,53); (4863229783043379,54); (2349277702239421,53); (2265640379365773,53); (2180574717360881,53);
  (4187858924611049,54); (4011049474511229,54); (1915144645410867,53); (1822527274780575,53); (3454701814409319,54); (6516858111463699,55);
  (6110437989897595,55); (2843753988974881,54); (5244565943781131,55); (1194201532995217,53); (1069339260631165,53); (1867920856859055,54);
  (3135348374357475,55); (2444976910680605,55); (6384763609136047,57); (36010386380205,51)].

(* color_maps.hpp:182 *)
Definition smooth_cool_warm_b : list (Z * Z) := [
  (1697857371563167,51); (3423687272673215,52); (6902769566987355,53); (1739401433850859,51); (3505937167694645,52); (7065566753593915,53);
  (7118674479793623,53); (3585594554074799,52); (3611551169224765,52); (3637202988666431,52); (915636492437387,50); (7375152248898725,53);
  (7424579039906307,53); (7473364558475259,53); (7521501163273919,53); (7568981326802501,53); (3807898818245249,52); (7661942795774215,53);
  (481713101572123,49); (969023882903839,50); (7796280167721649,53); (7839670116454537,53); (246323569010637,48); (7924325864324165,53);
  (995697328539173,50); (1000763271010501,50); (8045902276163703,53); (1010620108836493,50); (4061637998128429,52); (2040210456177115,51);
  (8197652655948119,53); (2058425729673501,51); (2067246792805573,51); (8303500102083899,53); (4168618265398303,52); (523136963032021,49);
  (8402359818659409,53); (4216868488779807,52); (4232159117509965,52); (8494099074898737,53); (8523075115646375,53); (8551242110819901,53);
  (8578595949571931,53); (8605132657113407,53); (8630848395150231,53); (8655739462293585,53); (8679802294443901,53); (8703033465148359,53);
  (8725429685931789,53); (8746987806600985,53); (8767704815522285,53); (8787577839872363,53); (8806604145862211,53); (8824781138934213,53);
  (8842106363932307,53); (8858577505245155,53); (8874192386922331,53); (8888948972763465,53); (8902845366380345,53); (8915879811231967,53);
  (8928050690632509,53); (8939356527732221,53); (8949795985471299,53); (8959367866506635,53); (8968071113111595,53); (8975904807048751,53);
  (8982868169415623,53); (8988960560463459,53); (8994181479389143,53); (8998530564100163,53); (9002007590952793,53); (9004612474463493,53);
  (9006345266993581,53); (1,0); (9007195475703035,53); (9006313682618665,53); (9004561379209581,53); (9001939301401009,53);
  (8998448320513775,53); (8994089442763921,53); (8988863808736197,53); (8982772692831533,53); (8975817502688601,53); (8967999778579517,53);
  (8959321192779845,53); (8949783548912937,53); (8939388781268785,53); (8928138954097431,53); (8916036260877043,53); (8903083023556841,53);
  (8889281691774855,53); (8874634842050751,53); (8859145176953741,53); (8842815524245741,53); (8825648835999843,53); (8807648187694245,53);
  (8788816777281717,53); (8769157924234741,53); (8748675068566357,53); (8727371769826901,53); (8705251706076667,53); (8682318672834601,53);
  (8658576582003127,53); (8634029460769151,53); (8608681450481367,53); (8582536805503899,53); (8555599892046323,53); (8527875186970185,53);
  (8499367276572003,53); (8470080855342783,53); (8440020724704133,53); (8409191791720921,53); (4188799533895257,52); (8345247667308547,53);
  (8312142806311249,53); (4139144900547109,52); (8243694066807605,53); (4104180558013817,52); (510768534831521,49); (8135506093685341,53);
  (8097995521215657,53); (4029885363706573,52); (8020837689719587,53); (7981202473926991,53); (7940871232578983,53); (987481275418359,50);
  (7858145707380091,53); (1953941036907651,51); (7769755530784411,53); (7720380434215447,53); (7670688015743289,53); (7620686560883119,53);
  (1892596086257145,51); (7519789632060895,53); (3734455336485767,52); (7417755704498645,53); (3683166473888729,52); (7314650607004857,53);
  (3631358434059165,52); (7210539897489481,53); (3579063920316157,52); (7105488820926461,53); (7052630938355551,53); (3499781134130457,52);
  (3473145430055385,52); (6892824736285109,53); (854896486359555,50); (6785340288506551,53); (6731337863159491,53); (417323282314431,49);
  (6622852119393883,53); (3284192252740799,52); (6513777475386665,53); (6459038792977635,53); (6404176184832601,53); (1587299334797543,51);
  (3147054952458957,52); (779865186312305,50); (3091819831516649,52); (3064135973632403,52); (759103228076997,50); (6017308732248705,53);
  (2980864031070177,52); (1476522790044723,51); (5850405325276743,53); (5794677808503477,53); (358682238264847,49); (5683126489337191,53);
  (5627316942330591,53); (5571494222625649,53); (5515665329739303,53); (2729918605273355,52); (5404016758550393,53); (668526351646197,50);
  (330776634940613,49); (5236669525393147,53); (5180947585309033,53); (5125266955186051,53); (1267408548521203,51); (5014055803152115,53);
  (2479269112528333,52); (2451543921723249,52); (4847710982428425,53); (4792413906069665,53); (4737202817921983,53); (2341041930284269,52);
  (4627063115193797,53); (4572146601176731,53); (4517340275707643,53); (8925300066857929,54); (8816163412200587,54); (8707282124576279,54);
  (8598667614161297,54); (8490331163655549,54); (8382283927814607,54); (8274536933034339,54); (8167101076989059,54); (8059987128324271,54);
  (3976602863202493,53); (7846767381120705,54); (7740682472748451,54); (7634961251874841,54); (7529613839378761,54); (928081278309495,51);
  (7320080274827083,54); (7215913716710753,54); (7112160155263413,54); (7008829064787743,54); (3452964895565757,53); (6803471552139007,54);
  (6701463438177109,54); (1649978603184595,52); (3249416656561803,53); (6398228851206363,54); (3149054807141233,53); (3099242033003557,53);
  (6099360547422981,54); (3000373639041299,53); (5902652357268391,54); (5805083765314425,54); (5708049365033589,54); (1402889225813689,52);
  (2757807006237069,53); (1355057053156507,52); (5325406912977763,54); (5231157414154487,54); (2568743455149789,53); (5044402491376769,54);
  (2475955572810311,53); (2430009881071131,53); (4768735133697853,54); (2339031979813765,53); (573501606121663,51); (2249294161892299,53);
  (2204898411310483,53); (4321644704261803,54); (529267281454207,51); (4147283675966207,54); (4061087121188745,54); (993888667144877,52);
  (972673085420261,52); (3806506111495315,54); (3723001901973119,54); (1820092797906481,53); (222378940036585,50); (1738320027599571,53);
  (6791844873454131,55); (6631831935217377,55); (6473252846498007,55); (6316119160063693,55); (1540110611883789,53); (93847411206083,49);
  (5853506432709965,55); (5702270532925329,55); (347033653285683,51); (5404322144114943,55)].
