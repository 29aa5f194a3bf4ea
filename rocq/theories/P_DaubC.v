(** * P_DaubC: approximate inverses of the Jacobians of Daubechies' equations
    at the printed coefficients, scaled by a power of two.  Only used as hints:
    what they must satisfy is checked in P_Daub. *)
Require Import List ZArith.
Import ListNotations.
Open Scope Z_scope.

Definition hint_bits (t : Z) : Z :=
  match t with
  | 1 => 4
  | 2 => 8
  | 3 => 11
  | 4 => 14
  | 5 => 19
  | 6 => 23
  | 7 => 28
  | 8 => 33
  | 9 => 39
  | 10 => 44
  | _ => 0
  end.

Definition hint1 : list (list Z) := [
  [8; 8];
  [8; -8]].
Definition hint2 : list (list Z) := [
  [87; -121; 215; -101];
  [151; 7; -105; 27];
  [41; 377; -87; 101];
  [-23; 249; -23; -27]].
Definition hint3 : list (list Z) := [
  [482; -601; 1427; 2103; -1765; 305];
  [1169; -413; 1135; -347; -430; 130];
  [666; 2089; -2923; -1169; 2104; -447];
  [-196; 2738; -1317; -878; 458; -97];
  [-124; 560; 3545; 90; -339; 143];
  [51; -276; 2230; 201; -28; -32]].
Definition hint4 : list (list Z) := [
  [2669; -3166; 5833; -21154; 18190; -21185; 6643; -602];
  [8282; -4391; 9014; -31054; 1175; -14349; 6341; -663];
  [7309; 10491; -9945; 35250; -9196; 24074; -9060; 883];
  [-324; 23108; -15060; 50172; -13361; 18773; -7739; 838];
  [-2167; 10490; 15347; -32497; -1188; -3329; 3120; -422];
  [357; -2875; 24224; -24449; 4938; -5044; 1382; -147];
  [381; -1432; 5150; 34785; 387; 440; -703; 141];
  [-123; 542; -1794; 21715; -944; 620; 15; -28]].
Definition hint5 : list (list Z) := [
  [59354; -68275; 110174; -284084; 1407504; 592796; -865457; 378305; -63105; 3525];
  [223856; -141093; 248933; -622247; 2998210; 125030; -915296; 545213; -103987; 6245];
  [268521; 183470; -95992; 252869; -1296187; -196612; 759298; -378361; 64543; -3592];
  [51319; 685020; -456972; 1125651; -5232323; -549044; 1263330; -750393; 149401; -9308];
  [-89825; 509074; 167158; -112238; 573370; -200495; 170749; 11056; -11075; 925];
  [-11954; -34560; 787325; -832872; 3456005; 231727; -452887; 251869; -54123; 3700];
  [28758; -116177; 383590; 470752; -1520201; 79365; -75858; -16847; 13399; -1282];
  [-2314; 19859; -66694; 908467; -1577743; -84940; 120817; -50009; 8453; -563];
  [-4664; 16196; -40642; 196989; 1359803; -12911; 11269; 5847; -3762; 424];
  [1237; -4937; 11696; -54712; 880139; 15083; -15963; 3320; 257; -73]].
Definition hint6 : list (list Z) := [
  [661620; -745366; 1107245; -2359352; 7951395; -50027417; 9366509; -16186395; 8882416; -2080442; 216478;
    -8208];
  [2933932; -2038872; 3269836; -6827579; 22534298; -139461441; 2588315; -22497467; 16821763; -4505448; 504160;
    -19983];
  [4455457; 1205003; 461932; -861987; 2249922; -11166304; -1121530; 7522912; -3659312; 638001; -45729; 1106];
  [1869952; 9309062; -5886406; 12211424; -39439148; 239806550; -8713825; 30203533; -23363005; 6566793; -761630;
    30971];
  [-1342121; 10049958; -943118; 4760897; -14470845; 83599136; -6210833; 13574644; -7666592; 1922322; -217102;
    8880];
  [-769731; 1379302; 10803137; -10276268; 30913040; -176166414; 3111186; -10848404; 8944553; -2830783; 363493;
    -15981];
  [578345; -2732875; 9233514; 284364; 2382330; -8075766; 2898465; -6474887; 2989479; -483553; 31955; -744];
  [163256; -216989; 88619; 13992629; -22275384; 112529379; -1738611; 4156138; -2981577; 918122; -124396; 5894];
  [-187333; 706269; -1664982; 7200374; 6365484; -32135670; -857672; 1792912; -589489; -19555; 21627; -1544];
  [3285; -67937; 160747; -862866; 17565320; -46576301; 670376; -1172818; 637226; -153728; 17735; -821];
  [28337; -94381; 194017; -635688; 3910323; 26194629; 119366; -229186; 43498; 23226; -7229; 510];
  [-6390; 24042; -47324; 151268; -909519; 18256835; -111745; 159017; -58961; 5043; 637; -79]].
Definition hint7 : list (list Z) := [
  [14777295; -16397123; 23007942; -43319396; 116616876; -486575086; 3711864153; 291970952; -574211438;
    373608716; -110333242; 16229271; -1156189; 31709];
  [75268132; -55715731; 83612303; -155269551; 411219956; -1693104063; 12776867683; 79137392; -962856959;
    865082015; -293493040; 46534838; -3470479; 98092];
  [138398408; 1851103; 49329035; -89959372; 227482777; -901663452; 6595949706; 15886032; -29355357; 136581709;
    -72218111; 14277099; -1213879; 37373];
  [89170565; 236100773; -133567987; 247316942; -648094191; 2642365695; -19788745791; -223695780; 1169880298;
    -1117282546; 398755444; -65355940; 4982885; -143006];
  [-27315163; 349905433; -99108995; 239989680; -605205376; 2384651930; -17401474772; -259187829; 949276521;
    -791489518; 278081426; -46447325; 3634767; -106949];
  [-42524875; 121652683; 255884636; -195630361; 487760159; -1896288035; 13676473176; 25232323; -293979804;
    359146363; -155036818; 28991280; -2423638; 74312];
  [13535383; -92018829; 357406321; -131530810; 382754477; -1386885529; 9492001997; 123646633; -493091054;
    386735996; -125494621; 20083686; -1553457; 45982];
  [15301283; -40431282; 75070345; 351261436; -471111623; 1698623774; -11522588225; -33335253; 135294131;
    -151308383; 68586910; -14039544; 1279924; -42193];
  [-7218559; 32697315; -77261634; 339393281; -110560949; 386453725; -1981915451; -49966068; 188711277;
    -129976433; 34581789; -4284146; 256257; -6130];
  [-3146056; 6738844; -12352789; 19200449; 507472498; -1142186491; 6943757667; 27276235; -66059532; 56326823;
    -22701408; 4538319; -427462; 14869];
  [2382337; -8713266; 17072118; -51381796; 278683444; 113227506; -1134724329; 13601757; -46781725; 27135651;
    -4734386; 20434; 53892; -3006];
  [81539; 333056; -635494; 2644380; -23163201; 690985741; -2586417662; -10428983; 20542214; -13399768; 4151405;
    -677428; 56728; -1931];
  [-341974; 1110824; -2009333; 5243869; -21335793; 159226363; 986734152; -1733748; 5451777; -2596121; 117146;
    120980; -21391; 1022];
  [67139; -242887; 424442; -1087839; 4351858; -31961165; 769088607; 1596338; -2820348; 1435496; -262492; 8475;
    2042; -144]].
Definition hint8 : list (list Z) := [
  [330521880; -362527192; 487822032; -841613424; 1949073591; -6362656078; 31655239621; -283784051203;
    9074831069; -19710355242; 14653276118; -5148464199; 959237224; -97163987; 5040902; -104642];
  [1900382356; -1470474302; 2100783048; -3589804948; 8205400588; -26491498375; 130604851569; -1161945396888;
    1948399483; -37886847215; 39678945150; -16129556916; 3250630285; -345393424; 18492313; -392369];
  [4103781768; -659036329; 2097763679; -3559866670; 7929009634; -25039713378; 121241520572; -1062513921302;
    1293649811; -12330528370; 19022782270; -9445691546; 2142134538; -245632253; 13856523; -305218];
  [3555444934; 5617050532; -2605523417; 4442106404; -10161246624; 32786558090; -161510269390; 1436100310131;
    -4678817836; 38482080887; -43708051723; 18636601795; -3854710840; 415631398; -22446495; 478819];
  [-96146001; 11163691277; -4153791746; 8270878373; -18275147068; 57119963398; -274468596182; 2392394028538;
    -8252254548; 49187913200; -52469540194; 22910193985; -4933510126; 553053989; -30882954; 677260];
  [-1725110692; 6342682321; 5075731104; -2143404396; 4753209906; -14904355209; 71579121754; -623185020392;
    -2090012297; 561184463; 4637211093; -3502841748; 945506566; -118890570; 7083361; -161536];
  [2869872; -2175556289; 11989076012; -6127030419; 14454063114; -42838158585; 197158880615; -1663402620529;
    3249854110; -25658378186; 27567730233; -11987274257; 2614235927; -299677050; 17159163; -385535];
  [782011998; -2538418835; 5240306702; 7039152735; -6788554023; 20140056478; -92445923866; 774782752405;
    237932675; -787045849; -1504720409; 1740848485; -585540971; 85225932; -5636060; 138862];
  [-105501152; 921471192; -2429647991; 12739203176; -8712583892; 25155217868; -105354778963; 827626445976;
    -1577366200; 11915167743; -11892055074; 4812378344; -992385390; 110439170; -6278664; 142121];
  [-267792098; 766079968; -1445170153; 3339872812; 11408472928; -20954576357; 90284643555; -719181536783;
    639023603; -1046039006; 1551377400; -1098206950; 343820794; -51040475; 3521545; -90740];
  [84920778; -391819963; 762908698; -2297078647; 12772220524; -9714910697; 33855568832; -211663054700;
    660558133; -4288385244; 3825312658; -1349170622; 235520705; -21857244; 1051479; -20927];
  [53123784; -130577630; 230080910; -508021505; 1170124515; 18490304112; -56211533454; 406699378751;
    -495216125; 971902119; -875560330; 438175423; -118280002; 16775638; -1165826; 30994];
  [-29582529; 106822001; -185884875; 454077970; -1681366914; 11021982064; -2098621048; -26022628031;
    -175402441; 991691184; -782276333; 223576659; -24952168; 382375; 104675; -4809];
  [-2379431; 1081859; -2237059; 1105532; 30554184; -611097531; 27456367652; -137430795252; 166252341;
    -342193401; 250539077; -92782877; 19375672; -2309441; 146210; -3803];
  [4102680; -13110105; 21688783; -48635767; 154665604; -751790001; 6600721144; 35955735843; 21097361;
    -107125084; 74770324; -15548364; -280710; 455000; -51124; 1751];
  [-713554; 2510677; -4036542; 8927959; -28026883; 134543383; -1167323228; 32750242619; -22529141; 46958001;
    -29740258; 7762788; -801503; 941; 4953; -226]].
Definition hint9 : list (list Z) := [
  [14802271385; -16087514926; 20962069113; -33880412133; 70366712927; -194229213121; 745470014137;
    -4306854592913; 44363493747549; 566070831904; -1325855262240; 1096709000080; -441910284644; 98311130656;
    -12666789893; 938948641; -37074659; 602775];
  [94787331685; -75795587988; 104240523581; -167352048563; 343879051988; -940334416904; 3581006871457;
    -20552630983049; 210510899019704; 75046747575; -2826671235547; 3370030285198; -1584341032391; 382849392984;
    -51869424919; 3974102523; -160565799; 2654360];
  [235116560532; -67112390438; 144232314588; -230927690337; 466216063704; -1254886160099; 4717126419727;
    -26779295054649; 271749862969485; 75894286159; -1624425588774; 2582540001220; -1417839641871; 376419311178;
    -54252408050; 4339244779; -180858596; 3060098];
  [255511580369; 249480412150; -76598358334; 122208860726; -256375545945; 713118163941; -2750296911257;
    15946822963825; -164715964889238; -158795710111; 2154297066665; -2803513297116; 1360040448945;
    -330749947233; 44642180425; -3394699929; 135993483; -2229576];
  [51778627473; 666718406641; -271882592576; 486609008424; -975973254070; 2604170589630; -9720174685227;
    54886944397108; -554674696172266; -411251922999; 4286696002543; -5547662315935; 2865764246012;
    -746358358830; 107031612745; -8562184248; 357610345; -6066796];
  [-114006096195; 535764416797; 144779741656; 76772692630; -147540731748; 373160497127; -1337245575316;
    7312321994229; -71994280151324; -255079552994; 1233533222914; -1142636132647; 456476406371; -100481269729;
    13069850956; -993945580; 40595150; -684256];
  [-37645504887; -38956720405; 720600483197; -388225170193; 816295613781; -2094977261630; 7564545927684;
    -41620296066368; 412041819226363; 59922415127; -2036020268770; 2828178721936; -1518819197656; 411489417098;
    -61290399645; 5072304670; -218144403; 3793797];
  [57743146246; -226146575147; 508290465588; 184504597372; 10994562232; -7786940965; -31062883150;
    364145845829; -4692508441926; 56715674087; -776098705045; 802605612797; -306453910625; 56731438922;
    -5647740939; 307021247; -8470755; 90601];
  [11944180471; 14705326338; -87575297354; 815680163564; -631452575705; 1593585183390; -5417045552694;
    28420999981292; -271199066979441; -32934133748; 1055965404085; -1402501424774; 732847084780; -196903503447;
    29582750658; -2494581218; 109792353; -1955617];
  [-26291319766; 88107384258; -168861563065; 419722483353; 353558602788; -419978364430; 1533981193092;
    -8395801142830; 81779540957217; 31435357394; 240653124061; -257788833695; 73604706122; -2629124118;
    -1864793097; 308907981; -18645339; 398599];
  [97552199; -16300985915; 35358347734; -129617143302; 923679023133; -976461900289; 3069315684556;
    -14695005680360; 130708807532001; 27602823666; -495153049770; 596440906782; -288066551499; 72642172509;
    -10442280483; 860548796; -37680059; 676004];
  [8692784517; -25833563393; 44781631098; -100393965274; 283497752501; 715702868771; -1766290678614;
    9100404635498; -84477642224508; -39638076124; -7171077293; 17232598532; 10320080258; -9531565433;
    2457207452; -286730930; 15686529; -325990];
  [-1836080029; 9066009864; -15600214377; 37955972395; -142794911638; 977486966937; -1239915633050;
    4876511294527; -35875191975083; -13684928065; 172732964353; -187450910287; 80882194001; -17926826415;
    2239508613; -160703730; 6247674; -102764];
  [-1664374888; 4369799136; -7187873630; 14883272171; -39571140187; 118451579888; 1340327948469;
    -5332185335380; 45457370715904; 20297399971; -28233441379; 21627231126; -12912063276; 4666239969;
    -923867968; 98190592; -5241865; 109756];
  [718246977; -2585763438; 4139968334; -8802398634; 26009398176; -114641314596; 885329921135; -787750212938;
    945332880023; 3684200895; -37751786938; 37186308170; -13947566213; 2443196731; -194556832; 3777432; 311531;
    -12731];
  [89559255; -137755127; 231563891; -431613537; 891539015; -1012435778; -29429375561; 2194404350799;
    -14129302022502; -5499051261; 11200191669; -8684160848; 3636516652; -913172996; 140145631; -12761826;
    629109; -12870];
  [-97947178; 309446166; -479264770; 963484104; -2590256421; 9708923666; -54896282379; 554501748188;
    2489394585258; -425665989; 3811585511; -3440287192; 1089717090; -116539480; -7437113; 2644877; -204186;
    5234];
  [15295723; -52716797; 79683102; -158464989; 421723244; -1565137762; 8765224769; -87726515033; 2811642850561;
    639304525; -1509146045; 1126696652; -371152057; 58007634; -3557541; -84079; 19486; -623]].
Definition hint10 : list (list Z) := [
  [331763626698; -357896218701; 454568456957; -698387591823; 1335144103758; -3257174147708; 10444018230399;
    -46072449641737; 303118352240702; -3527133431474577; 17769493775160; -44049682095701; 39727774953996;
    -17893331970233; 4580463131441; -707057697897; 66916025079; -3790816096; 117764680; -1540109];
  [2340835475041; -1919929621281; 2561379092450; -3916737341580; 7421825489473; -17960777717338;
    57200182132783; -250874188916486; 1642316779013558; -19027183294787632; 870320357665; -101932673939162;
    135593062299639; -71897739349314; 20083380493127; -3268624918278; 320285779870; -18587907461; 587641793;
    -7786379];
  [6558147683696; -2485864553825; 4491875996271; -6864600273402; 12838907291964; -30691033357696;
    96745920718307; -420663887518413; 2733500486154421; -31466770782099111; 927437506583; -80672649352637;
    139442017402333; -85040704423607; 25867388510453; -4453648599789; 453879149278; -27103429229; 875378079;
    -11791174];
  [8564123431080; 5072541184762; -216812219479; 297168979881; -761831090912; 2295647813995; -8448275635093;
    41142600306281; -291782996816087; 3600864466817399; -2430617957080; 47835050926648; -66913587293878;
    34246871921142; -8955830934398; 1353069473063; -123164795181; 6670567271; -197998456; 2479059];
  [3497658566009; 18865140382395; -7728080924063; 12890277880661; -24010294320942; 57055201384236;
    -178917626958150; 774783904324427; -5018379165563987; 57618341948418450; -7628733231482; 166203330035504;
    -252356296155481; 149525197170335; -45293507403559; 7819112656576; -800327778705; 48003124158; -1556609331;
    21040419];
  [-3107978098976; 19999334835137; 78089944325; 7246922745076; -13238710834613; 30683089224531;
    -94302444587802; 401832820546378; -2568373846863716; 29164125302799995; -8171038911155; 92808261106066;
    -123950979853919; 68508826479602; -20161595549611; 3457577921381; -355385025437; 21504927343; -704624730;
    9624183];
  [-2437484270796; 3012349916442; 19672858567423; -9673359206153; 18879773369276; -43549422500273;
    132983682392570; -563655096094504; 3588246787748282; -40615138509942277; -3787092556548; -61849806241864;
    110090062194637; -70807374017339; 22875616243102; -4162120189488; 444593834906; -27606088026; 920783948;
    -12736741];
  [1584417793069; -8091641435828; 20470512555042; -953416246917; 10229272792222; -22752041011963;
    67225585118964; -278062461488981; 1738288249868288; -19408226370707194; -162019132633; -57647946625139;
    83607858442925; -46188412908896; 13263703812200; -2217509813881; 223622754700; -13370866090; 435380391;
    -5933682];
  [1157592116673; -1884860731572; 1189193550160; 22834013044644; -16778649972516; 38441444555264;
    -112278364555054; 458877243336476; -2837303249183770; 31363225177595547; 1873133074252; 33150898618539;
    -57488370549762; 37040552727770; -12201866178125; 2287507360759; -252646045302; 16208650349; -557113738;
    7915086];
  [-888111352369; 3611665942182; -7211301381991; 19349220161239; 411871376957; 8579290266872; -21977121044701;
    80736742786037; -462902117350260; 4860711823761531; 2383610310720; 25359088134823; -38507967874384;
    20445146775800; -5444094404189; 828175298952; -75662176050; 4124107341; -123926886; 1581452];
  [-366438621493; 430581260766; -429381222477; -1254528819965; 27999836506150; -30384065692931; 84796796982006;
    -327222224259706; 1933251846838070; -20611075701531579; -302298847654; -19725307499619; 30436302050132;
    -18430782958814; 5875628554202; -1089433066635; 120898402098; -7869824169; 275825938; -4003155];
  [413150854059; -1423038023472; 2466999657345; -5572401520823; 16594335850726; 6337839225210; -8286095564949;
    44363968519569; -309839919843765; 3615580725334475; -2119753300770; -7373046604593; 12204144810650;
    -5999227686397; 1332920584956; -143758157067; 6225734116; 94773330; -16610961; 384154];
  [44863918052; 84441344563; -173576283716; 609434487688; -3462467918136; 33829658292653; -50297393866755;
    177358272712232; -963569292906694; 9620322374296243; -132401055759; 9594321905535; -13246864047186;
    7347343415296; -2177101919077; 381577302596; -40780758210; 2603023853; -90796575; 1325503];
  [-133515916553; 407479356768; -656278247232; 1332352776971; -3531629557596; 11877931169237; 20754977325600;
    -69204864898372; 429817279426095; -4638590423207290; 1178787664067; 679641040868; -1990289414727;
    830720118449; -71359733231; -24311209522; 6530905417; -642030011; 28925815; -497430];
  [17357553471; -98882838462; 155736712530; -329945660486; 992438707058; -4563477108804; 37822302125108;
    -69708540510258; 315553313590251; -2680281914751573; 101901468419; -3263574453547; 4117686174532;
    -2072058293944; 549758588504; -85500532159; 8104311455; -463556670; 14793093; -202953];
  [24784633364; -67690211720; 104931255671; -200652516538; 488882852219; -1528394017615; 5601102367161;
    47885265942920; -244488344377126; 2436627355804014; -429719789765; 431386925480; -165301770544;
    110397949099; -64132937434; 18695660684; -2859036286; 236223922; -9977600; 168475];
  [-8531751429; 30825205807; -46378948152; 89220240547; -226121526602; 785024583905; -4026442950457;
    35954082444155; -60350985467171; 237176875726925; -28526236597; 676561593731; -792866481115; 359866760247;
    -81520666749; 9848833540; -602366774; 12689811; 323318; -13814];
  [-1448795740; 2904365039; -4527978080; 8249242705; -18342352420; 48763504586; -129308598423; -524763284689;
    87926133237619; -707755655741469; 93564520558; -183567547050; 143260950939; -64483326903; 18599746293;
    -3476051696; 411634412; -29488356; 1158260; -19066];
  [1164201326; -3647722997; 5370139484; -9938057296; 23619804408; -73969964228; 319293926442; -2059118748256;
    23524092594314; 78926149806367; 3179125833; -64092509941; 70554457915; -28708409711; 5141139809;
    -286067503; -34773823; 6226018; -349411; 6936];
  [-165000767; 559652828; -806633634; 1479764403; -3488481640; 10837586901; -46415469123; 297066531760;
    -3369030250192; 121438255970587; -9226783814; 23806582060; -20200296701; 7900027418; -1591077715;
    161796364; -5775559; -307289; 32374; -766]].

Definition hint (t : Z) : list (list Z) :=
  match t with
  | 1 => hint1
  | 2 => hint2
  | 3 => hint3
  | 4 => hint4
  | 5 => hint5
  | 6 => hint6
  | 7 => hint7
  | 8 => hint8
  | 9 => hint9
  | 10 => hint10
  | _ => []
  end.
