(** Fraction bits of the floats nearest to 2^(i/1024), the table that the constructor of ExpVar fills in
    (vendor/fmath.hpp:168-173: tbl[i] = bits of pow(2.0f, (float)i / n) & mask(23)), with pow rounded to
    nearest.  Which table the C library gives is not known; the theorems hold for every table within one unit of 2^(i/1024)
    and this one is used in examples. *)
From Coq Require Import List ZArith.
Import ListNotations.
Local Open Scope Z_scope.

(** tbl, vendor/fmath.hpp:153, 168-173 *)
Definition exp_table : list Z := [
  0; 5680; 11364; 17052; 22744; 28439; 34139; 39842; 45549; 51260; 56975; 62694;
  68417; 74143; 79874; 85608; 91346; 97088; 102834; 108584; 114337; 120095; 125857; 131622;
  137391; 143164; 148942; 154723; 160508; 166296; 172089; 177886; 183687; 189491; 195300; 201112;
  206928; 212749; 218573; 224401; 230233; 236069; 241909; 247753; 253601; 259453; 265309; 271169;
  277033; 282901; 288772; 294648; 300528; 306411; 312299; 318191; 324086; 329986; 335890; 341797;
  347709; 353624; 359544; 365468; 371395; 377327; 383263; 389202; 395146; 401094; 407046; 413002;
  418961; 424925; 430893; 436865; 442841; 448821; 454805; 460793; 466786; 472782; 478782; 484787;
  490795; 496808; 502824; 508845; 514869; 520898; 526931; 532968; 539009; 545054; 551104; 557157;
  563215; 569276; 575342; 581411; 587485; 593563; 599645; 605732; 611822; 617916; 624015; 630118;
  636225; 642336; 648451; 654570; 660693; 666821; 672953; 679089; 685229; 691373; 697521; 703674;
  709830; 715991; 722156; 728325; 734499; 740676; 746858; 753044; 759234; 765428; 771627; 777829;
  784036; 790247; 796463; 802682; 808906; 815134; 821366; 827602; 833843; 840088; 846337; 852590;
  858847; 865109; 871375; 877645; 883920; 890198; 896481; 902769; 909060; 915356; 921656; 927960;
  934269; 940581; 946899; 953220; 959546; 965875; 972210; 978548; 984891; 991238; 997589; 1003945;
  1010305; 1016669; 1023038; 1029411; 1035788; 1042170; 1048556; 1054946; 1061340; 1067739; 1074142; 1080550;
  1086962; 1093378; 1099798; 1106223; 1112653; 1119086; 1125524; 1131966; 1138413; 1144864; 1151320; 1157779;
  1164243; 1170712; 1177185; 1183662; 1190144; 1196630; 1203120; 1209615; 1216114; 1222618; 1229126; 1235639;
  1242156; 1248677; 1255203; 1261733; 1268267; 1274806; 1281350; 1287897; 1294450; 1301006; 1307567; 1314133;
  1320703; 1327278; 1333856; 1340440; 1347028; 1353620; 1360217; 1366818; 1373424; 1380034; 1386648; 1393268;
  1399891; 1406519; 1413152; 1419789; 1426431; 1433077; 1439727; 1446382; 1453042; 1459706; 1466374; 1473048;
  1479725; 1486407; 1493094; 1499785; 1506481; 1513181; 1519886; 1526595; 1533309; 1540028; 1546751; 1553478;
  1560210; 1566947; 1573688; 1580434; 1587184; 1593939; 1600699; 1607463; 1614231; 1621005; 1627782; 1634565;
  1641352; 1648143; 1654940; 1661740; 1668546; 1675356; 1682170; 1688990; 1695814; 1702642; 1709475; 1716313;
  1723155; 1730002; 1736854; 1743710; 1750571; 1757437; 1764307; 1771182; 1778061; 1784945; 1791834; 1798728;
  1805626; 1812529; 1819436; 1826348; 1833265; 1840187; 1847113; 1854044; 1860979; 1867920; 1874865; 1881814;
  1888769; 1895728; 1902692; 1909660; 1916634; 1923612; 1930594; 1937582; 1944574; 1951571; 1958573; 1965579;
  1972590; 1979606; 1986627; 1993652; 2000682; 2007717; 2014757; 2021801; 2028850; 2035904; 2042963; 2050027;
  2057095; 2064168; 2071246; 2078329; 2085416; 2092508; 2099606; 2106707; 2113814; 2120926; 2128042; 2135163;
  2142289; 2149420; 2156555; 2163696; 2170841; 2177991; 2185146; 2192306; 2199471; 2206640; 2213815; 2220994;
  2228178; 2235367; 2242561; 2249759; 2256963; 2264171; 2271385; 2278603; 2285826; 2293054; 2300287; 2307525;
  2314767; 2322015; 2329267; 2336525; 2343787; 2351054; 2358327; 2365604; 2372886; 2380173; 2387464; 2394761;
  2402063; 2409370; 2416681; 2423998; 2431320; 2438646; 2445977; 2453314; 2460655; 2468002; 2475353; 2482709;
  2490071; 2497437; 2504808; 2512184; 2519566; 2526952; 2534343; 2541740; 2549141; 2556547; 2563958; 2571375;
  2578796; 2586222; 2593654; 2601090; 2608532; 2615978; 2623430; 2630886; 2638348; 2645815; 2653286; 2660763;
  2668245; 2675732; 2683224; 2690721; 2698223; 2705730; 2713243; 2720760; 2728283; 2735810; 2743343; 2750881;
  2758424; 2765972; 2773525; 2781083; 2788646; 2796215; 2803788; 2811367; 2818951; 2826540; 2834134; 2841733;
  2849338; 2856947; 2864562; 2872182; 2879807; 2887437; 2895072; 2902713; 2910359; 2918010; 2925666; 2933327;
  2940993; 2948665; 2956342; 2964024; 2971711; 2979403; 2987101; 2994804; 3002512; 3010225; 3017944; 3025667;
  3033396; 3041131; 3048870; 3056615; 3064365; 3072120; 3079880; 3087646; 3095417; 3103193; 3110974; 3118761;
  3126553; 3134350; 3142153; 3149961; 3157774; 3165592; 3173416; 3181245; 3189079; 3196919; 3204764; 3212614;
  3220470; 3228330; 3236197; 3244068; 3251945; 3259827; 3267715; 3275607; 3283506; 3291409; 3299318; 3307232;
  3315152; 3323077; 3331007; 3338943; 3346884; 3354831; 3362782; 3370740; 3378702; 3386670; 3394644; 3402622;
  3410607; 3418596; 3426591; 3434592; 3442598; 3450609; 3458626; 3466648; 3474675; 3482708; 3490747; 3498791;
  3506840; 3514895; 3522955; 3531021; 3539092; 3547168; 3555250; 3563338; 3571431; 3579529; 3587633; 3595743;
  3603858; 3611978; 3620104; 3628236; 3636373; 3644515; 3652663; 3660817; 3668976; 3677140; 3685310; 3693486;
  3701667; 3709854; 3718046; 3726244; 3734447; 3742656; 3750871; 3759091; 3767316; 3775547; 3783784; 3792026;
  3800274; 3808528; 3816787; 3825051; 3833322; 3841598; 3849879; 3858166; 3866459; 3874757; 3883061; 3891370;
  3899686; 3908006; 3916333; 3924665; 3933002; 3941346; 3949695; 3958049; 3966410; 3974776; 3983147; 3991525;
  3999908; 4008296; 4016691; 4025091; 4033496; 4041908; 4050325; 4058748; 4067176; 4075610; 4084050; 4092496;
  4100947; 4109404; 4117867; 4126335; 4134810; 4143290; 4151775; 4160267; 4168764; 4177267; 4185776; 4194290;
  4202811; 4211337; 4219868; 4228406; 4236949; 4245499; 4254054; 4262614; 4271181; 4279753; 4288331; 4296915;
  4305505; 4314101; 4322702; 4331309; 4339922; 4348541; 4357166; 4365796; 4374433; 4383075; 4391723; 4400377;
  4409037; 4417703; 4426374; 4435051; 4443735; 4452424; 4461119; 4469820; 4478527; 4487240; 4495958; 4504683;
  4513413; 4522149; 4530892; 4539640; 4548394; 4557154; 4565920; 4574692; 4583470; 4592254; 4601043; 4609839;
  4618641; 4627448; 4636262; 4645081; 4653907; 4662738; 4671576; 4680419; 4689269; 4698124; 4706986; 4715853;
  4724727; 4733606; 4742491; 4751383; 4760280; 4769184; 4778093; 4787009; 4795931; 4804858; 4813792; 4822732;
  4831678; 4840629; 4849587; 4858551; 4867521; 4876497; 4885480; 4894468; 4903462; 4912463; 4921469; 4930482;
  4939501; 4948526; 4957557; 4966594; 4975637; 4984686; 4993742; 5002803; 5011871; 5020945; 5030025; 5039111;
  5048204; 5057302; 5066407; 5075517; 5084634; 5093758; 5102887; 5112022; 5121164; 5130312; 5139466; 5148626;
  5157793; 5166965; 5176144; 5185329; 5194521; 5203718; 5212922; 5222132; 5231348; 5240571; 5249800; 5259035;
  5268276; 5277523; 5286777; 5296037; 5305303; 5314576; 5323855; 5333140; 5342431; 5351729; 5361033; 5370343;
  5379660; 5388983; 5398312; 5407648; 5416990; 5426338; 5435692; 5445053; 5454420; 5463794; 5473174; 5482560;
  5491953; 5501352; 5510757; 5520169; 5529587; 5539011; 5548442; 5557879; 5567323; 5576773; 5586229; 5595692;
  5605161; 5614637; 5624119; 5633607; 5643102; 5652603; 5662111; 5671625; 5681146; 5690673; 5700206; 5709746;
  5719293; 5728846; 5738405; 5747971; 5757543; 5767122; 5776707; 5786299; 5795897; 5805502; 5815113; 5824731;
  5834355; 5843986; 5853624; 5863267; 5872918; 5882575; 5892238; 5901908; 5911585; 5921268; 5930957; 5940654;
  5950356; 5960066; 5969782; 5979504; 5989233; 5998969; 6008711; 6018460; 6028216; 6037978; 6047746; 6057522;
  6067304; 6077092; 6086887; 6096689; 6106498; 6116313; 6126134; 6135963; 6145798; 6155639; 6165488; 6175343;
  6185205; 6195073; 6204948; 6214830; 6224718; 6234613; 6244515; 6254424; 6264339; 6274261; 6284190; 6294125;
  6304067; 6314016; 6323971; 6333934; 6343903; 6353879; 6363861; 6373851; 6383847; 6393850; 6403859; 6413876;
  6423899; 6433929; 6443966; 6454009; 6464060; 6474117; 6484181; 6494252; 6504329; 6514414; 6524505; 6534603;
  6544708; 6554820; 6564939; 6575064; 6585197; 6595336; 6605482; 6615635; 6625795; 6635961; 6646135; 6656316;
  6666503; 6676697; 6686898; 6697106; 6707321; 6717543; 6727772; 6738008; 6748251; 6758500; 6768757; 6779020;
  6789291; 6799568; 6809853; 6820144; 6830442; 6840748; 6851060; 6861379; 6871705; 6882039; 6892379; 6902726;
  6913080; 6923441; 6933810; 6944185; 6954567; 6964957; 6975353; 6985756; 6996167; 7006584; 7017009; 7027441;
  7037879; 7048325; 7058778; 7069238; 7079705; 7090179; 7100660; 7111148; 7121644; 7132146; 7142656; 7153172;
  7163696; 7174227; 7184765; 7195310; 7205863; 7216422; 7226989; 7237563; 7248144; 7258732; 7269327; 7279929;
  7290539; 7301156; 7311780; 7322411; 7333050; 7343695; 7354348; 7365008; 7375675; 7386350; 7397032; 7407720;
  7418417; 7429120; 7439831; 7450549; 7461274; 7472006; 7482746; 7493493; 7504247; 7515009; 7525778; 7536554;
  7547337; 7558128; 7568926; 7579731; 7590544; 7601364; 7612191; 7623026; 7633868; 7644717; 7655574; 7666438;
  7677309; 7688188; 7699074; 7709967; 7720868; 7731776; 7742692; 7753615; 7764545; 7775483; 7786428; 7797381;
  7808341; 7819309; 7830283; 7841266; 7852255; 7863253; 7874257; 7885269; 7896289; 7907316; 7918350; 7929392;
  7940442; 7951499; 7962563; 7973635; 7984714; 7995801; 8006896; 8017997; 8029107; 8040224; 8051348; 8062480;
  8073620; 8084767; 8095922; 8107084; 8118253; 8129431; 8140616; 8151808; 8163008; 8174216; 8185431; 8196654;
  8207884; 8219122; 8230368; 8241621; 8252882; 8264150; 8275426; 8286710; 8298001; 8309300; 8320607; 8331921;
  8343243; 8354573; 8365910; 8377255].
