(** The contents of srg/database/problem_*.py, written by
    tools/gen_database.py: per file the parameters and the list [solutions];
    a row is the number whose binary digits are its entries, first entry
    first ([ModelDb.unpack] undoes this). *)
From Coq Require Import ZArith List.
Import ListNotations.
Open Scope Z_scope.

(** srg/database/problem_4_2_0_2.py *)
Definition db_4_2_0_2 : list (list Z) :=
  [[6;9;9;6]].

(** srg/database/problem_5_2_0_1.py *)
Definition db_5_2_0_1 : list (list Z) :=
  [[12;18;17;9;6]].

(** srg/database/problem_10_3_0_1.py *)
Definition db_10_3_0_1 : list (list Z) :=
  [[448;560;524;515;266;261;161;146;100;88]].

(** srg/database/problem_10_6_3_4.py *)
Definition db_10_6_3_4 : list (list Z) :=
  [[504;742;798;821;843;717;691;467;429;126];
   [504;742;853;907;798;685;627;435;365;222]].

(** srg/database/problem_12_6_0_6.py *)
Definition db_12_6_0_6 : list (list Z) :=
  [[2016;2079;2079;2079;2079;2079;2079;2016;2016;2016;2016;2016]].

(** srg/database/problem_13_6_2_3.py *)
Definition db_13_6_2_3 : list (list Z) :=
  [[4032;5688;6438;6293;5197;4707;4506;3211;2638;2417;1811;1268;940];
   [4032;5688;6438;6293;5203;4686;4521;3149;2827;2290;1699;1436;884]].

(** srg/database/problem_15_6_1_3.py *)
Definition db_15_6_1_3 : list (list Z) :=
  [[16128;20720;24591;17612;18483;16700;17091;10538;10517;9861;9802;6801;6754;5524;5480];
   [16128;20720;24591;17612;18483;16835;16956;10794;10773;9605;9546;6545;6498;5780;5736]].

(** srg/database/problem_15_8_4_4.py *)
Definition db_15_8_4_4 : list (list Z) :=
  [[16320;24120;25080;26406;27285;27723;22758;21845;21387;14622;13485;12915;3507;2925;1758];
   [16320;24120;27942;29845;30795;25080;21222;19285;18315;13086;10925;9843;6579;5485;3294]].

(** srg/database/problem_16_5_0_2.py *)
Definition db_16_5_0_2 : list (list Z) :=
  [[31744;33728;33336;33062;32917;32843;24583;20505;18474;17460;12481;10562;9604;6728;5776;3872]].

(** srg/database/problem_16_6_2_2.py *)
Definition db_16_6_2_2 : list (list Z) :=
  [[32256;45504;51504;50316;41514;37397;35907;24662;20585;17283;10393;9509;6310;5402;2892;1776];
   [32256;45504;53304;57351;34596;35474;35913;18660;17746;17289;10524;9386;8817;6435;5269;4686]].

(** srg/database/problem_16_9_4_6.py *)
Definition db_16_9_4_6 : list (list Z) :=
  [[32704;48188;50106;50037;50419;51983;46187;46231;43373;39582;31367;31051;26325;21994;12148;8120];
   [32704;48188;50106;50037;50419;51983;46247;46171;43613;39342;31307;31111;26085;22234;12148;8120];
   [32704;48188;50106;50037;50959;51443;47211;47255;42349;38558;30343;30027;27349;23018;12148;8120];
   [32704;48188;50106;50037;50959;51443;47271;47195;42589;38318;30283;30087;27109;23258;12148;8120];
   [32704;48188;50106;51827;53647;49653;45421;44567;44139;38558;30343;30027;27349;20330;14836;8120];
   [32704;48188;50106;52007;53467;50013;46195;46223;43381;36526;29389;28295;28003;22002;15196;8120];
   [32704;48188;50106;52007;53467;50013;46231;46187;43629;36278;29141;28259;28039;22250;15196;8120];
   [32704;48188;54067;57551;49914;49653;43437;42590;40471;40235;28231;28043;23381;22442;14836;14072];
   [32704;48188;54067;57551;50094;50013;44139;44183;39289;38582;27349;26090;24211;23907;15196;14252];
   [32704;48188;54067;57551;50094;50013;44187;44135;39541;38330;27097;26342;24163;23955;15196;14252];
   [32704;48188;54067;57551;50859;51543;43254;42233;39709;38702;27469;26510;23026;22257;15961;15782];
   [32704;48188;54067;57551;50859;51543;43374;42653;39289;38582;27349;26090;23446;22377;15961;15782];
   [32704;48188;54067;57551;50859;51543;43422;42605;39541;38330;27097;26342;23398;22425;15961;15782]].

(** srg/database/problem_16_10_6_6.py *)
Definition db_16_10_6_6 : list (list Z) :=
  [[32736;48924;56538;58329;59062;59758;55733;54893;47731;46507;36807;31375;30039;20283;11517;5118];
   [32736;48924;56538;60086;61806;58329;54709;52845;46707;44459;39879;30351;27991;23355;14589;2046]].

(** srg/database/problem_17_8_3_4.py *)
Definition db_17_8_3_4 : list (list Z) :=
  [[65280;94448;101580;99242;100917;86407;82777;78878;76899;59419;50486;45389;38595;26277;23146;11220;7608];
   [65280;94448;101580;99242;100947;86302;82789;78983;76857;57885;54315;42326;39333;27075;20146;14956;6104];
   [65280;94448;101580;100922;99237;90507;82774;78877;72803;55319;50489;45390;42691;27237;22186;11700;7128];
   [65280;94448;101580;100922;99747;90413;86603;75094;72341;53534;50741;47175;41929;27795;19426;13996;7544];
   [65280;94448;101580;101027;99162;90414;82837;78919;72761;58395;53805;43349;38310;22979;20082;15004;10216];
   [65280;94448;101580;101027;99642;90443;86573;75157;72278;57886;51509;46151;37833;23699;18402;14764;11896]].

(** srg/database/problem_21_10_4_5.py *)
Definition db_21_10_4_5 : list (list Z) :=
  [].

(** srg/database/problem_21_10_5_4.py *)
Definition db_21_10_5_4 : list (list Z) :=
  [[1047552;1557440;1589184;1696312;1757478;1788053;1803339;1449528;1387814;1356949;1341515;926200;856806;822101;804747;209694;174765;157299;104883;87405;52446];
   [1047552;1557440;1811000;1937702;2001045;2032715;1589184;1334840;1207590;1143957;1112139;811512;676582;609109;575371;406302;338605;304755;203187;169325;101598]].

(** srg/database/problem_25_8_3_2.py *)
Definition db_25_8_3_2 : list (list Z) :=
  [[16711680;24178688;28315392;30408944;31457295;17270920;17515588;17637922;17699089;8943752;8696900;8573474;8511761;4753288;4475716;4336930;4267537;2656376;2376884;2237138;2167265;1607815;1328203;1188397;1118494]].

(** srg/database/problem_25_12_5_6.py *)
Definition db_25_12_5_6 : list (list Z) :=
  [[16773120;24907712;25415472;25377996;25965372;26642603;26821719;23675566;23495005;21576083;21378659;19977881;19982694;15242362;14969013;13787610;13734629;11183879;10836747;5922061;5615118;3877489;3610034;973524;910824]].

(** srg/database/problem_26_10_3_4.py *)
Definition db_26_10_3_4 : list (list Z) :=
  [[33521664;48266752;51929568;50731416;50431608;42047814;42288277;38405926;38068299;37229195;36841525;25823821;25334947;22095117;22069910;19673174;19220771;13898353;13183034;11683098;10789772;6852033;6508772;1891368;1519296;783120]].

(** srg/database/problem_27_10_1_5.py *)
Definition db_27_10_1_5 : list (list Z) :=
  [[67043328;83951360;100663551;71364848;75501327;68209868;69219123;67414698;67654997;67201430;67278441;44630295;44433963;43648077;43321486;40505457;40181938;39403732;39223528;27924225;27601666;26823940;26643976;23687440;23507488;22729792;22407296];
   [67043328;83951360;100663551;71364848;75501327;68209868;69219123;67414698;67654997;67212905;67266966;44695831;44368427;43582541;43387022;40439921;40247474;39469268;39157992;27858689;27667202;26889476;26578440;23752976;23441952;22664256;22472832]].

(** srg/database/problem_28_12_6_4.py *)
Definition db_28_12_6_4 : list (list Z) :=
  [[134184960;200309760;202374144;217596864;225714744;229773606;231803029;232817739;185058240;176923192;172855590;170821781;169804875;117981120;109338168;105016614;102855829;101775435;25977336;21648102;19483477;18401163;12989214;10824365;9741939;6494643;5412205;3247326];
   [134184960;200309760;219118080;248275392;225493424;230163788;215127082;216108053;189203276;185311427;170758698;169773589;146210995;125844400;117726403;102919722;101807637;74463311;34298172;29901564;25485683;21767567;10671002;9554853;6952806;5836633;2536681;1420502];
   [134184960;200309760;219118080;248275392;225969584;229687628;215127082;216108053;193397680;185311427;170758698;169773589;142016591;121649996;117726403;102919722;101807637;78657715;34298172;29901564;25961843;21291407;11147162;10031013;6476646;5360473;2536681;1420502];
   [134184960;200309760;227439360;239726784;238438960;221357196;215288874;216173589;185045315;178979626;178029333;158105834;156958933;125844208;121657228;117992771;78664819;74463503;42361276;34485775;21095036;17422515;10832602;9620197;6629286;5416857;2956649;1744214];
   [134184960;200309760;227439360;239954112;238211632;221842572;215061546;216173589;189203340;185311555;178029333;158105834;146210931;125844208;117726531;111175466;89154773;74463503;42619324;34485775;21580412;17164467;10605274;9620197;6887334;5902233;2471273;1486166];
   [134184960;200309760;227439360;239954112;238211632;221842572;215125034;216110101;189203340;185311555;179077930;157057237;146210931;125844208;117726531;110126869;90203370;74463503;42619324;34485775;21580412;17164467;10668762;9556709;6950822;5838745;2534761;1422678];
   [134184960;200309760;227439360;239954112;238687792;221366412;215061546;216173589;193397488;185311555;178029333;158105834;142016783;121650060;117726531;111175466;89154773;78657651;42619324;34009615;21580412;17640627;11081434;10096357;6411174;5426073;2471273;1486166];
   [134184960;200309760;227439360;239954112;238687792;221366412;215125034;216110101;193397488;185311555;179077930;157057237;142016783;121650060;117726531;110126869;90203370;78657651;42619324;34009615;21580412;17640627;11144922;10032869;6474662;5362585;2534761;1422678];
   [134184960;200309760;227439360;240012480;238629424;221547660;215066666;216110101;193397488;189432716;185450819;146440307;142016783;117587267;111172394;110126869;90203370;89151701;42742204;34009615;21761660;17517747;11086554;10032869;6597542;5543833;2353513;1299798];
   [134184960;200309760;227439360;241787584;236378160;221357196;223939651;216304682;187106115;177898282;177049877;157974741;148308156;125844208;121657228;109210901;78664819;74463503;51143146;34485775;21095036;19483315;9751258;8640741;5547942;4437401;3936105;2825558];
   [134184960;200309760;227439360;241787584;236378160;221842572;223454275;216304682;189203340;177898282;177049877;157974741;146210931;125844208;119560003;109210901;80762044;74463503;51143146;34485775;21580412;18997939;9751258;8640741;6033318;4922777;3450729;2340182];
   [134184960;200309760;227439360;241978048;236187696;221842572;223644739;216114218;189203340;187335491;177049877;148537532;146210931;125844208;110122794;109210901;90199253;74463503;51143146;34485775;21580412;19188403;9560794;8640741;5842854;4922777;3450729;2530646];
   [134184960;200309760;227439360;241787584;236854320;221366412;223454275;216304682;193397488;177898282;177049877;157974741;142016783;121650060;119560003;109210901;80762044;78657651;51143146;34009615;21580412;19474099;10227418;9116901;5557158;4446617;3450729;2340182];
   [134184960;200309760;227439360;241978048;236663856;221366412;223644739;216114218;193397488;187335491;177049877;148537532;142016783;121650060;110122794;109210901;90199253;78657651;51143146;34009615;21580412;19664563;10036954;9116901;5366694;4446617;3450729;2530646];
   [134184960;200309760;227439360;241978048;236663856;221547660;223463491;216114218;193397488;189432716;177049877;146440307;142016783;119552835;110122794;109210901;90199253;80754876;51143146;34009615;21761660;19483315;10036954;9116901;5547942;4627865;3269481;2349398];
   [134184960;200309760;227439360;239954112;242357040;229705968;215061548;216173587;185057930;185311557;178029331;158105836;138347535;117980810;117726533;111175468;89154771;70318095;42619322;42349173;21580410;21309877;14750684;13765603;2741926;2471273;1756825;1486166];
   [134184960;200309760;227439360;239954112;242357040;229705968;215125036;216110099;185057930;185311557;179077932;157057235;138347535;117980810;117726533;110126867;90203372;70318095;42619322;42349173;21580410;21309877;14814172;13702115;2805414;2534761;1693337;1422678];
   [134184960;200309760;227439360;241787584;240523568;229705968;223462540;216304682;185049667;177898282;177049877;157974741;138347535;119551884;117988931;109210901;80753779;70318095;51143146;42357436;23151484;21572275;13896666;12786149;3458982;2348441;1879657;769110];
   [134184960;200309760;227439360;241978048;240333104;229705968;223906956;216114218;187073420;185320003;177049877;148275315;138347535;117718595;110122794;109210901;90199253;70318095;51143146;42611388;23595900;21318323;13706202;12786149;3712934;2792857;1435241;515158];
   [134184960;200309760;227439360;242762688;239548464;229705968;223462540;224955459;186024771;176923178;177049877;149323964;138347535;119551884;109338154;109210901;80753779;70318095;51143146;51008213;23151484;22547379;12921562;12786149;2483878;2348441;1879657;1744214];
   [134184960;200309760;227439360;242762688;239548464;229705968;223906956;224511043;187073420;176923178;177049877;148275315;138347535;118503235;109338154;109210901;81802428;70318095;51143146;51008213;23595900;22102963;12921562;12786149;2928294;2792857;1435241;1299798];
   [134184960;200309760;231498624;235894848;242271024;246941324;215127082;216108053;189203148;185311619;153981034;152995925;146211123;125844336;117726595;86142058;85029973;74463375;46678524;42263219;38545167;17521212;10670938;9554789;6952678;5836505;2536873;1420694];
   [134184960;200309760;231498624;235894848;242747184;246465164;215127082;216108053;193397616;185311619;153981034;152995925;142016655;121649868;117726595;86142058;85029973;78657843;46678524;42739379;38069007;17521212;11147098;10030949;6476518;5360345;2536873;1420694];
   [134184960;200309760;231498624;237728320;240437552;244622476;219880451;216173610;187106179;180978069;154763882;154046549;148308092;125844336;121657036;86076501;78665011;74463375;51012074;42748595;38545167;17035836;9620314;8771941;5416678;4568281;3805097;2956694];
   [134184960;200309760;231498624;237728320;240437552;245107852;219395075;216173610;189203148;180978069;154763882;154046549;146211123;125844336;119560067;86076501;80761980;74463375;51012074;42263219;38545167;17521212;9620314;8771941;5902054;5053657;3319721;2471318];
   [134184960;200309760;231498624;237918784;240247088;244917388;219585539;216110122;189203148;187335555;153978965;148537468;146211123;125844336;113266069;87051882;86144085;74463375;51139050;42263219;38545167;17521212;9556826;8644965;5838566;4926681;3446697;2534806];
   [134184960;200309760;231498624;237728320;240913712;244631692;219395075;216173610;193397616;180978069;154763882;154046549;142016655;121649868;119560067;86076501;80761980;78657843;51012074;42739379;38069007;17521212;10096474;9248101;5425894;4577497;3319721;2471318];
   [134184960;200309760;231498624;237918784;240723248;244441228;219585539;216110122;193397616;187335555;153978965;148537468;142016655;121649868;113266069;87051882;86144085;78657843;51139050;42739379;38069007;17521212;10032986;9121125;5362406;4450521;3446697;2534806];
   [134184960;200309760;231498624;237918784;240723248;244622476;219404291;216110122;193397616;189432524;153978965;146440499;142016655;119552899;113266069;87051882;86144085;80754812;51139050;42558131;38069007;17702460;10032986;9121125;5543654;4631769;3265449;2353558];
   [134184960;200309760;231498624;237728320;240437552;246678924;223548492;216173610;185049731;180978069;154763882;154046549;144640051;125844336;117988995;86076501;76608563;74463375;51012074;46416636;38545167;19092284;9620314;8771941;7473126;6624729;1748649;900246];
   [134184960;200309760;231498624;237918784;240723248;246456716;223516748;216110122;193397616;185320067;153978965;144606259;142016655;117718659;113266069;87051882;86144085;76642355;51139050;46670588;38069007;19536700;10032986;9121125;7377894;6466009;1431209;519318];
   [134184960;200309760;231498624;238248768;239917104;246158476;223548492;220441603;180781738;180978069;154763882;154566997;144640051;125844336;118509443;81808508;76608563;74463375;51012074;50684629;38545167;19092284;9099866;8771941;6952678;6624729;1748649;1420694];
   [134184960;200309760;231498624;238703424;239462448;245703820;223548492;220896259;186024835;180978346;154763605;149323900;144640051;125844336;113266069;87051882;76608563;74463375;51139050;51012309;38545167;19092284;8772186;8644965;6624998;6497753;1875625;1748374];
   [134184960;200309760;231498624;238703424;239938608;245672076;223516748;220451843;193397616;180978346;154763605;144606259;142016655;118503299;113266069;87051882;81802364;76642355;51139050;51012309;38069007;19536700;9248346;9121125;6593254;6466009;1431209;1303958];
   [134184960;200309760;231498624;238820160;239821872;245555340;223516748;220568579;193397616;186221443;149520508;144606259;142016655;113260202;113266069;87051882;87045461;76642355;51139050;51129045;38069007;19536700;9131610;9121125;6476518;6466009;1431209;1420694];
   [134184960;200309760;231498624;237728320;242485680;244630796;227743856;216173610;185049731;180978069;154763882;154046549;140444687;121648972;117988995;86076501;78656691;72415247;51012074;46416636;42740531;19092284;11668442;10820069;5424998;4576601;1748649;900246];
   [134184960;200309760;231498624;237918784;242295216;244884748;227743856;216110122;189170508;185320067;153978965;146178227;140444687;117718659;113266069;87051882;86144085;72415247;51139050;46670588;42296115;19536700;11604954;10693093;5805926;4894041;1431209;519318];
   [134184960;200309760;231498624;238248768;241965232;244110348;227743856;220441603;180781738;180978069;154763882;154566997;140444687;121648972;118509443;81808508;78656691;72415247;51012074;50684629;42740531;19092284;11147994;10820069;4904550;4576601;1748649;1420694];
   [134184960;200309760;231498624;238703424;241510576;243655692;227743856;220896259;186024835;180978346;154763605;149323900;140444687;121648972;113266069;87051882;78656691;72415247;51139050;51012309;42740531;19092284;10820314;10693093;4576870;4449625;1875625;1748374];
   [134184960;200309760;231498624;238703424;241510576;244100108;227743856;220451843;189170508;180978346;154763605;146178227;140444687;118503299;113266069;87051882;81802364;72415247;51139050;51012309;42296115;19536700;10820314;10693093;5021286;4894041;1431209;1303958];
   [134184960;200309760;231498624;238820160;241393840;243983372;227743856;220568579;189170508;186221443;149520508;146178227;140444687;113260202;113266069;87051882;87045461;72415247;51139050;51129045;42296115;19536700;10703578;10693093;4904550;4894041;1431209;1420694];
   [134184960;200309760;231498624;238703424;241510576;244622476;227743856;224564300;185058051;180978346;154763605;145655859;140444687;117980931;113266069;87051882;77689907;72415247;51139050;51012309;46408572;20059068;10820314;10693093;5543654;5416409;908841;781590];
   [134184960;200309760;233325504;236876544;241289392;245959756;248546499;220640259;189203276;152805930;152932629;147753020;146210995;125844400;85220906;85093653;79787068;74463311;51143146;51008213;44090227;40372111;8776346;8640933;5058150;4922713;3450601;3315158];
   [134184960;200309760;233325504;236876544;241765552;245483596;248546499;220640259;193397680;152805930;152932629;147753020;142016591;121649996;85220906;85093653;79787068;78657715;51143146;51008213;44566387;39895951;9252506;9117093;4581990;4446553;3450601;3315158];
   [134184960;200309760;233325504;236876544;241289392;246482124;248024131;222770188;187073347;152805930;152932629;148275388;145688627;125844400;85220906;85093653;77657139;74463311;51143146;51008213;46220156;40372111;8776346;8640933;5580518;5445081;2928233;2792790];
   [134184960;200309760;233325504;236876544;241765552;246450380;247579715;222738444;193397680;152805930;152932629;145654835;142016591;119551811;85220906;85093653;80753852;77690931;51143146;51008213;46664572;39895951;9252506;9117093;5548774;5413337;2483817;2348374];
   [134184960;200309760;233325504;236876544;242288880;245482636;248024131;226965552;187073347;152805930;152932629;148275388;141493263;121649036;85220906;85093653;78656627;73463823;51143146;51008213;46220156;44567475;9775834;9640421;4581030;4445593;2928233;2792790];
   [134184960;200309760;233325504;236876544;242288880;245927052;247579715;226965552;189170572;152805930;152932629;146178163;141493263;119551811;85220906;85093653;80753852;73463823;51143146;51008213;46664572;44123059;9775834;9640421;5025446;4890009;2483817;2348374];
   [134184960;200309760;227439360;248078560;254075032;221842532;215256092;207854595;189203300;178946844;169710339;156926179;146210971;125844178;125851049;101871363;74470998;74463533;34494806;34485805;25288827;21580470;21571021;10799822;10790325;7081848;1301201;1291690];
   [134184960;200309760;227439360;248078560;254560408;221357156;215256092;207854595;193397458;178946844;169710339;156926179;142016813;125843881;121657188;101871363;78664859;74463830;34485590;34009645;25774203;21571254;21094861;11275982;10799541;6596472;1777361;1300906];
   [134184960;200309760;227439360;248269024;254369944;221547620;215065628;207854595;193397458;189432676;169710339;146440347;142016813;125843881;111171356;101871363;89150691;74463830;34485590;34009645;25774203;21761718;21285325;11085518;10609077;6596472;1777361;1300906];
   [134184960;200309760;227439360;248269024;254551192;221366372;215065628;207854595;193397458;193626537;169710339;142246486;142016813;121650020;111171356;101871363;89150691;78657691;34304342;34009645;25955451;21580470;21285325;11085518;10790325;6415224;1777361;1482154];
   [134184960;200309760;227439360;248078560;258228888;229705940;215256090;207854597;185049442;178946842;169710341;156926181;138347563;125843113;117988706;101871365;74462550;70318123;42357149;34486870;29442685;21572022;17425611;14945230;10798771;5446609;2927992;1300140];
   [134184960;200309760;227439360;248269024;258482840;229705940;215065626;207854597;193364649;185319778;169710341;141984086;138347563;117718370;111171354;101871365;89150693;70318123;42611101;34042454;29887101;21318070;17616075;14754766;11052723;5446609;2483576;1744556];
   [134184960;200309760;227439360;250102496;256204952;229705940;223906914;207854597;187073378;176922906;169710341;148275357;138347563;125843113;109337882;101871365;74462550;70318123;51007973;34486870;29442685;23595958;19449547;12921294;8774835;5446609;2927992;1300140];
   [134184960;200309760;227439360;250102496;256649368;229705940;223462498;207854597;193364649;176922906;169710341;141984086;138347563;119551842;109337882;101871365;80753821;70318123;51007973;34042454;29887101;23151542;19449547;12921294;9219251;5446609;2483576;1744556];
   [134184960;200309760;227439360;250102496;258220440;229705940;231769258;207854598;185057889;176922905;169710342;140413013;138347563;117980769;109337881;101871366;72447061;70318123;51007974;42349214;31458174;21580469;19449547;12921293;10790323;5446610;3315628;912504];
   [134184960;200309760;231498624;244019296;253944344;238816644;215125020;207985667;189202916;173638531;162103420;152997987;146211355;125844306;125851305;85027939;74470742;74463405;42262939;38554326;38545197;17520950;17511629;10668878;10659509;6950392;1432401;1423018];
   [134184960;200309760;231498624;244019296;254429720;238331268;215125020;207985667;193397586;173638531;162103420;152997987;142016685;125844137;121656804;85027939;78665243;74463574;42748315;38545110;38069037;17511734;17035469;11145038;10668725;6465016;1908561;1432234];
   [134184960;200309760;231498624;244209760;254366232;238331268;215061532;207858691;193397586;189432292;152930403;146440731;142016685;125844137;105926531;94391420;85095523;74463574;42557851;38545110;38069037;17702198;17225933;11081550;10605237;6591992;1781585;1305258];
   [134184960;200309760;231498624;244209760;254547480;238150020;215061532;207858691;193397586;193626793;152930403;142246230;142016685;121649636;105926531;94391420;85095523;78658075;42739099;38363862;38069037;17520950;17225933;11081550;10786485;6410744;1781585;1486506];
   [134184960;200309760;231498624;245588576;252375064;238816644;223546468;207985667;180781468;173638531;162103420;154567267;144642075;125844306;125851305;76606491;74470742;74463405;50684387;38554326;38545197;19090230;19080909;9099598;9090229;6950392;1432401;1423018];
   [134184960;200309760;231498624;246043232;252405784;238331268;223515748;207985667;193397586;173638531;162103420;144607259;142016685;125844137;113266076;87051875;76641307;74463574;51139043;38545110;38069037;19535670;19059405;9121102;8644789;6465016;1908561;1432234];
   [134184960;200309760;231498624;246043232;252532760;238331268;223515748;207858691;193397586;180978076;154763875;144607259;142016685;125844137;105926531;94391420;76641307;74463574;51012067;38545110;38069037;19535670;19059405;9248078;8771765;6591992;1781585;1305258];
   [134184960;200309760;231498624;246159968;252597272;238150020;223451236;207858691;193397586;193626793;144540699;142246230;142016685;113259932;105926531;94391420;87045731;76707867;51128803;38363862;38069037;19471158;19176141;9131342;8836277;6410744;1781585;1486506];
   [134184960;200309760;231498624;246043232;253315608;238331268;223515748;216108060;193397586;172728707;153981027;144607259;142016685;125844137;105143683;86142051;76641307;74463574;59261436;38545110;38069037;19535670;19059405;10030926;9554613;7374840;998737;522410];
   [134184960;200309760;231498624;245588576;254431512;236760196;227743826;207985667;180781468;173638531;162103420;154567267;140444717;125843241;121655012;78662939;74462422;72415277;50684387;42750619;38546262;19081910;17032781;11147726;9098549;4893944;3480529;1431338];
   [134184960;200309760;231498624;246043232;253976856;236760196;227743826;207985667;189170404;173638531;162103420;146178331;140444717;125843241;113266076;87051875;74462422;72415277;51139043;42295963;38546262;19536566;17487437;10693070;8643893;4893944;3480529;1431338];
   [134184960;200309760;231498624;246043232;254103832;236760196;227743826;207858691;189170404;180978076;154763875;146178331;140444717;125843241;105926531;94391420;74462422;72415277;51012067;42295963;38546262;19536566;17487437;10820046;8770869;5020920;3353553;1304362];
   [134184960;200309760;231498624;246043232;254421272;236315780;227743826;207985667;193364777;173638531;162103420;141983958;140444717;121648868;113266076;87051875;78656795;72415277;51139043;42740379;38101846;19092150;17487437;10693070;9088309;4449528;3480529;1875754];
   [134184960;200309760;231498624;246043232;254548248;236315780;227743826;207858691;193364777;180978076;154763875;141983958;140444717;121648868;105926531;94391420;78656795;72415277;51012067;42740379;38101846;19092150;17487437;10820046;9215285;4576504;3353553;1748778];
   [134184960;200309760;231498624;246159968;254431512;236315780;227743826;207858691;193364777;189367012;146374939;141983958;140444717;113259932;105926531;94391420;87045731;72415277;51128803;42623643;38101846;19208886;17604173;10703310;9098549;4576504;3353553;1748778];
   [134184960;200309760;231498624;246043232;254886680;236760196;227743826;216108060;189170404;172728707;153981027;146178331;140444717;125843241;105143683;86142051;74462422;72415277;59261436;42295963;38546262;19536566;17487437;11602894;9553717;5803768;2570705;521514];
   [134184960;200309760;231498624;246043232;255331096;236315780;227743826;216108060;193364777;172728707;153981027;141983958;140444717;121648868;105143683;86142051;78656795;72415277;59261436;42740379;38101846;19092150;17487437;11602894;9998133;5359352;2570705;965930];
   [134184960;200309760;231498624;246563680;254366232;236760196;227743826;224562276;180716188;172728707;154501475;145657883;140444717;125843241;105143683;77687835;74462422;72415277;59261436;50750179;38546262;20057014;18007885;11082446;9033269;5803768;2570705;521514];
   [134184960;200309760;231498624;246944608;254429720;236315780;227743826;224498788;193364777;172728707;145590299;141983958;140444717;113258140;105143683;87043427;77755419;72415277;59261436;51131107;38101846;19993526;18388813;10701518;9096757;5359352;2570705;965930];
   [134184960;200309760;231498624;246563680;255333016;235793412;227743826;228758569;180716188;172728707;154501475;141461590;140444717;121646948;105143683;78654619;73495638;72415277;59261436;50750179;42742555;19090230;18007885;11082446;10000053;4836984;2570705;1488298];
   [134184960;200309760;231498624;246944608;254952088;235793412;227743826;228758569;189104996;172728707;146112667;141461590;140444717;113258140;105143683;87043427;73495638;72415277;59261436;51131107;42361627;19471158;18388813;10701518;9619125;4836984;2570705;1488298];
   [134184960;200309760;231498624;244019296;258097752;246680340;215125018;207985669;185049506;173638533;162103418;152997989;138347659;125843145;117988770;85027941;74462518;70318219;46416349;38546102;34400011;25383485;17512790;14814062;10667731;5577585;2796984;1431244];
   [134184960;200309760;231498624;244209760;258478680;246489876;215061530;207858693;193364681;185319842;152930405;141984054;138347659;117718434;105926533;94391418;85095525;70318219;46670301;38101686;34400011;25827901;17258838;14750574;11048659;5450609;2479544;1748684];
   [134184960;200309760;231498624;245588576;256528472;245111060;219393058;207985669;180781466;173638533;162103418;154567269;138347659;125843145;119558050;80759901;74462518;70318219;50684389;38546102;34400011;25383485;19082070;13244782;9098451;5577585;2796984;1431244];
   [134184960;200309760;231498624;246043232;256073816;244656404;219847714;207985669;187073442;173638533;162103418;148275293;138347659;125843145;113266074;87051877;74462518;70318219;51139045;38546102;34400011;25383485;19536726;12790126;8643795;5577585;2796984;1431244];
   [134184960;200309760;231498624;246043232;256200792;244656404;219847714;207858693;187073442;180978074;154763877;148275293;138347659;125843145;105926533;94391418;74462518;70318219;51012069;38546102;34400011;25383485;19536726;12917102;8770771;5450609;2923960;1304268];
   [134184960;200309760;231498624;246043232;256518232;244656404;219403298;207985669;193364681;173638533;162103418;141984054;138347659;119551906;113266074;87051877;80753757;70318219;51139045;38101686;34400011;25827901;19092310;12790126;9088211;5577585;2352568;1875660];
   [134184960;200309760;231498624;246043232;256645208;244656404;219403298;207858693;193364681;180978074;154763877;141984054;138347659;119551906;105926533;94391418;80753757;70318219;51012069;38101686;34400011;25827901;19092310;12917102;9215187;5450609;2479544;1748684];
   [134184960;200309760;231498624;246159968;256528472;244539668;219520034;207858693;193364681;187270050;148471901;141984054;138347659;113259930;105926533;94391418;87045733;70318219;51128805;38101686;34400011;25827901;19209046;12800366;9098451;5450609;2479544;1748684];
   [134184960;200309760;231498624;246043232;256983640;244656404;219847714;216108058;187073442;172728709;153981029;148275293;138347659;125843145;105143685;86142053;74462518;70318219;59261434;38546102;34400011;25383485;19536726;13699950;9553619;4667761;3706808;521420];
   [134184960;200309760;231498624;246043232;257428056;244656404;219403298;216108058;193364681;172728709;153981029;141984054;138347659;119551906;105143685;86142053;80753757;70318219;59261434;38101686;34400011;25827901;19092310;13699950;9998035;4667761;3262392;965836];
   [134184960;200309760;231498624;246043232;258089304;244656404;227710026;207985670;185057953;173638534;162103417;140412981;138347659;117980833;113266073;87051878;72447029;70318219;51139046;46408414;34400011;27398974;17521237;12790125;10659283;5577586;3446732;781496];
   [134184960;200309760;231498624;246043232;258216280;244656404;227710026;207858694;185057953;180978073;154763878;140412981;138347659;117980833;105926534;94391417;72447029;70318219;51012070;46408414;34400011;27398974;17521237;12917101;10786259;5450610;3319756;908472];
   [134184960;200309760;231498624;246043232;258999128;244656404;227710026;216108057;185057953;172728710;153981030;140412981;138347659;117980833;105143686;86142054;72447029;70318219;59261433;46408414;34400011;27398974;17521237;13699949;11569107;4667762;2536908;1691320];
   [134184960;200309760;231498624;246563680;258478680;244135956;227710026;220449825;180716185;172728710;154501478;140412981;138347659;118501281;105143686;81800286;72447029;70318219;59261433;50750182;34400011;27398974;18041685;13179501;11048659;4667762;2536908;1691320];
   [134184960;200309760;231498624;246944608;258097752;243755028;227710026;220830753;185959329;172728710;149258334;140412981;138347659;113258137;105143686;87043430;72447029;70318219;59261433;51131110;34400011;27398974;18422613;12798573;10667731;4667762;2536908;1691320];
   [134184960;200309760;233325504;244216352;256205080;246483348;240684226;207854597;187073250;160145466;152932901;148275485;138347595;125843273;92560442;85093925;74462390;70318155;51007973;46219997;40373110;36226955;17709718;12921262;8774995;5446577;2927864;1300300];
   [134184960;200309760;233325504;244216352;256649496;246483348;240239810;207854597;193364809;160145466;152932901;141983926;138347595;119551714;92560442;85093925;80753949;70318155;51007973;46664413;39928694;36226955;17265302;12921262;9219411;5446577;2483448;1744716];
   [134184960;200309760;233325504;244736800;256201240;245962900;240684226;220638242;174293445;160662074;152936741;147755037;138347595;125843273;85089573;79784989;74462390;70318155;58999290;51012325;40373110;36226955;18230166;12917422;8771155;4929969;3444472;783692];
   [134184960;200309760;233325504;245117728;256518680;245581972;240239810;220574754;193364809;152801573;147687453;141983926;138347595;106962373;93331002;85224741;79852573;70318155;59253242;51139301;39928694;36226955;18166678;12790446;9088595;4676017;3254008;974156];
   [134184960;200309760;233325504;244736800;257168024;245962900;239717442;226931721;174293445;160662074;152936741;141461558;138347595;119549794;85089573;80751773;73495606;70318155;58999290;51012325;46666589;36226955;17263382;12917422;9737939;4929969;2477688;1750476];
   [134184960;200309760;233325504;245117728;257041048;245581972;239717442;226931721;187007842;152801573;148209821;141461558;138347595;106962373;93331002;85224741;73495606;70318155;59253242;51139301;46285661;36226955;17644310;12790446;9610963;4676017;2731640;1496524];
   [134184960;200309760;233325504;244216352;258220344;246483348;248546634;207854598;185057985;160145465;152932902;140413077;138347595;117980865;92560441;85093926;72447125;70318155;51007974;48235262;38357845;36226955;25572126;12921261;10790259;5446578;3315564;912600];
   [134184960;200309760;233325504;244736800;258216504;245962900;248026186;218622977;174293446;160662073;152936742;140413077;138347595;118501313;85089574;81800254;72447125;70318155;58999289;51012326;38357845;36226955;25572126;12917421;10786419;4929970;2798956;1429208];
   [134184960;200309760;233325504;245117728;258089528;245581972;247645258;219003905;185959361;152801574;149258302;140413077;138347595;106962374;93331001;85224742;72447125;70318155;59253241;51139302;38357845;36226955;25572126;12790445;10659443;4676018;2545004;1683160];
   [134184960;200309760;231498624;247685232;254431816;253045028;211459082;207985669;178684810;173638533;162103418;156663925;138347667;125843153;121654706;78663245;74462510;70318227;42750413;38546094;34400019;25383485;21178718;17032419;11148134;5577577;2796984;1431252];
   [134184960;200309760;231498624;248139888;253977160;253499684;211004426;207985669;189170098;173638533;162103418;146178637;138347667;125843153;111169418;89148533;74462510;70318227;42295757;38546094;34400019;25383485;21633374;17487075;10693478;5577577;2796984;1431252];
   [134184960;200309760;231498624;248139888;254104136;253372708;211131402;207858693;189170098;178881418;156860533;146178637;138347667;125843153;105926533;94391418;74462510;70318227;42295757;38546094;34400019;25383485;21633374;17487075;10820454;5450601;2923960;1304276];
   [134184960;200309760;231498624;248139888;254421576;253055268;211004426;207985669;193364689;173638533;162103418;141984046;138347667;121648562;111169418;89148533;78657101;70318227;42740173;38101678;34400019;25827901;21188958;17487075;10693478;5577577;2352568;1875668];
   [134184960;200309760;231498624;248139888;254548552;252928292;211131402;207858693;193364689;178881418;156860533;141984046;138347667;121648562;105926533;94391418;78657101;70318227;42740173;38101678;34400019;25827901;21188958;17487075;10820454;5450601;2479544;1748692];
   [134184960;200309760;231498624;248256624;254431816;253045028;211014666;207858693;193364689;189366706;146375245;141984046;138347667;111163274;105926533;94391418;89142389;70318227;42623437;38101678;34400019;25827901;21305694;17603811;10703718;5450601;2479544;1748692];
   [134184960;200309760;231498624;249709168;252407880;255068964;223513650;207985669;176660874;173638533;162103418;144609357;138347667;125843153;109600138;76639309;74462510;70318227;54804981;38546094;34400019;25383485;23202654;19056355;9124198;5577577;2796984;1431252];
   [134184960;200309760;231498624;250090096;252598344;254878500;223450162;207858693;193364689;176931210;144541773;141984046;138347667;109329802;105926533;94391418;76706893;70318227;55058933;38101678;34400019;25827901;23139166;19437283;8870246;5450601;2479544;1748692];
   [134184960;200309760;231498624;249709168;253317704;254159140;223513650;212442122;177570698;172728709;157646965;144609357;138347667;125843153;105143685;76639309;74462510;70318227;59261434;38546094;34400019;25383485;23202654;19056355;10034022;4667753;3706808;521428];
   [134184960;200309760;231498624;250090096;253381192;254095652;223450162;212061194;193364689;172728709;144541773;141984046;138347667;110112650;105143685;90188917;76706893;70318227;59261434;38101678;34400019;25827901;23139166;19437283;9653094;4667753;3262392;965844];
   [134184960;200309760;231498624;249709168;254423368;253053476;227710034;207985670;176660873;173638534;162103417;140412973;138347667;121646769;109600137;78654798;72447021;70318227;54804982;42742478;34400019;27398974;21187165;19056355;9124197;5577578;3446740;781496];
   [134184960;200309760;231498624;250090096;254169416;253307428;227710034;207858694;189104817;176931209;146112846;140412973;138347667;109329801;105926534;94391417;72447021;70318227;55058934;42361550;34400019;27398974;21568093;19437283;8870245;5450602;3319764;908472];
   [134184960;200309760;231498624;249709168;255333192;252143652;227710034;212442121;177570697;172728710;157646966;140412973;138347667;121646769;105143686;78654798;72447021;70318227;59261433;42742478;34400019;27398974;21187165;19056355;10034021;4667754;2536916;1691320];
   [134184960;200309760;231498624;250090096;254952264;252524580;227710034;212061193;189104817;172728710;146112846;140412973;138347667;110112649;105143686;90188918;72447021;70318227;59261433;42361550;34400019;27398974;21568093;19437283;9653093;4667754;2536916;1691320];
   [134184960;200309760;231498624;250610544;254431816;253045028;227710034;224496689;176669321;172728710;145592398;140412973;138347667;109592201;105143686;77753422;72447021;70318227;59261433;54797046;34400019;27398974;22088541;19957731;9132645;4667754;2536916;1691320];
   [134184960;200309760;233325504;247882288;252539144;254937764;240684226;207854597;178618826;160145466;156598837;144609549;138347603;125843281;92560442;76639501;74462382;70318163;54673909;42554061;40373102;36226963;21375646;17229411;9255334;5446569;2927864;1300308];
   [134184960;200309760;233325504;248263216;252602632;254874276;240239810;207854597;193364817;160145466;144541965;141983918;138347603;111160778;92560442;89140789;76707085;70318163;55054837;42617549;39928686;36226963;21312158;17610339;8874406;5446569;2483448;1744724];
   [134184960;200309760;233325504;247882288;253055752;254421156;240684226;212179978;174293445;160662074;156082229;144609549;138347603;125843281;88235061;76639501;74462382;70318163;58999290;42554061;40373102;36226963;21375646;17229411;9771942;4929961;3444472;783700];
   [134184960;200309760;233325504;248263216;253373192;254103716;240239810;212053002;193364817;155947061;144541965;141983918;138347603;106962373;93331002;88370229;76707085;70318163;59253242;42617549;39928686;36226963;21312158;17610339;9644966;4676009;3254008;974164];
   [134184960;200309760;233325504;248783664;253121160;254355748;239717442;226931729;174293445;160662074;144543885;141461550;138347603;111156938;89136437;76704909;73495598;70318163;58999290;55059189;42619725;36226963;21310238;18130787;8870566;4929961;2477688;1750484];
   [134184960;200309760;233325504;248783664;253375112;254101796;239717442;226931729;178488010;156467509;144543885;141461550;138347603;106962373;93331002;76704909;73495598;70318163;59253242;54805237;42619725;36226963;21310238;18130787;9124518;4676009;2731640;1496532];
   [134184960;200309760;233325504;247882288;254554408;252922500;244880706;207854598;178618825;160145465;156598838;140413069;138347603;121646801;92560441;78654766;72447117;70318163;54673910;44569326;38357837;36226963;25572126;17229411;9255333;5446570;3315572;912600];
   [134184960;200309760;233325504;248263216;254173480;253303428;244499778;207854598;189104849;160145465;146112814;140413069;138347603;111160777;92560441;89140790;72447117;70318163;55054838;44188398;38357837;36226963;25572126;17610339;8874405;5446570;3315572;912600];
   [134184960;200309760;233325504;247882288;255071016;252405892;244880706;212179977;174293446;160662073;156082230;140413069;138347603;121646801;88235062;78654766;72447117;70318163;58999289;44569326;38357837;36226963;25572126;17229411;9771941;4929962;2798964;1429208];
   [134184960;200309760;233325504;248263216;254944040;252532868;244499778;212053001;189104849;155947062;146112814;140413069;138347603;106962374;93331001;88370230;72447117;70318163;59253241;44188398;38357837;36226963;25572126;17610339;9644965;4676010;2545012;1683160];
   [134184960;200309760;233325504;248783664;254169640;253307268;243979330;222669841;174293446;160662073;145592366;140413069;138347603;111156937;89136438;77753390;72447117;70318163;58999289;55059190;38357837;36226963;25572126;18130787;8870565;4929962;2798964;1429208];
   [134184960;200309760;233325504;248783664;254423592;253053316;243979330;222669841;178488009;156467510;145592366;140413069;138347603;106962374;93331001;77753390;72447117;70318163;59253241;54805238;38357837;36226963;25572126;18130787;9124517;4676010;2545012;1683160];
   [134184960;200309760;233833440;248275728;254431880;253045060;244487330;241273953;159891993;155951382;145592462;140413005;138347571;92814873;88366358;77753486;72447053;70318131;59261433;54797046;44176238;38865837;36734931;17622819;9132741;4667850;2536884;1691256];
   [134184960;200309760;233325504;249831992;252604704;254872212;256935498;207854598;176669121;160145465;144544038;140413077;138347595;109592001;92560441;76705062;72447125;70318155;56623614;42619622;38357845;36226955;25572126;21310125;19179123;5446578;3315564;912600];
   [134184960;200309760;233325504;249831992;253121312;254355604;256418890;210230273;174293446;160662073;144544038;140413077;138347595;110108609;90184766;76705062;72447125;70318155;58999289;42619622;38357845;36226955;25572126;21310125;19179123;4929970;2798956;1429208];
   [134184960;200309760;233325504;249831992;253375264;254101652;256164938;210484225;177439681;157515838;144544038;140413077;138347595;106962374;93331001;76705062;72447125;70318155;59253241;42619622;38357845;36226955;25572126;21310125;19179123;4676018;2545004;1683160];
   [134184960;200309760;231498624;248139888;258089548;261362243;211004428;207985667;185057712;173638531;162103420;138316074;138347669;117980592;111169420;89148531;70350122;70318229;46408143;34433706;34400021;29495871;17520986;17487077;10693478;10659545;5577577;5543638];
   [134184960;200309760;231498624;248139888;258216524;261235267;211131404;207858691;185057712;178881420;156860531;138316074;138347669;117980592;105926531;94391420;70350122;70318229;46408143;34433706;34400021;29495871;17520986;17487077;10820454;10786521;5450601;5416662];
   [134184960;200309760;231498624;248139888;258032204;262670634;215059470;203930625;189170098;169583489;152932465;146178637;138347670;125843156;101998465;85093489;74462507;70318230;42295757;38546091;34400022;25383485;21633371;17487078;14748519;10602202;6852028;1522536];
   [134184960;200309760;231498624;248139888;258476620;262226218;215059470;203930625;193364692;169583489;152932465;141984043;138347670;121648562;101998465;85093489;78657101;70318230;42740173;38101675;34400022;25827901;21188955;17487078;14748519;11046618;6407612;1522536];
   [134184960;200309760;231498624;249709168;256520268;261362243;219401264;207985667;176660876;173638531;162103420;138316074;138347669;119549872;109600140;80751695;70350122;70318229;54804979;34433706;34400021;29495871;19090266;19056357;9124198;9090265;5577577;5543638];
   [134184960;200309760;231498624;250090096;256266316;261235267;219782192;207858691;187007920;176931212;148209743;138316074;138347669;109329804;105926531;94391420;70350122;70318229;55058931;34433706;34400021;29495871;19471194;19437285;8870246;8836313;5450601;5416662];
   [134184960;200309760;231498624;249709168;257430092;260452419;219401264;212442124;177570700;172728707;157646963;138316074;138347669;119549872;105143683;80751695;70350122;70318229;59261436;34433706;34400021;29495871;19090266;19056357;10034022;10000089;4667753;4633814];
   [134184960;200309760;231498624;250090096;257049164;260452419;219782192;212061196;187007920;172728707;148209743;138316074;138347669;110112652;105143683;90188915;70350122;70318229;59261436;34433706;34400021;29495871;19471194;19437285;9653094;9619161;4667753;4633814];
   [134184960;200309760;231498624;249709168;256462924;262670634;223513650;203930625;180715918;169583489;154501745;144609357;138347670;125843156;101998465;76639309;74462507;70318230;50749937;38546091;34400022;25383485;23202651;19056358;13179239;9032922;6852028;1522536];
   [134184960;200309760;231498624;250090096;256526412;262226218;223450162;203930625;193364692;169583489;144541773;141984043;138347670;113257870;101998465;87043697;76706893;70318230;51130865;38101675;34400022;25827901;23139163;19437286;12798311;9096410;6407612;1522536];
   [134184960;200309760;231498624;249709168;258478412;260655146;227710036;203930625;180715918;169583489;154501745;140412971;138347670;121646770;101998465;78654797;72447019;70318230;50749937;42742477;34400022;27398973;21187163;19056358;13179239;11048410;4836540;1522536];
   [134184960;200309760;231498624;250090096;258097484;260655146;227710036;203930625;189104818;169583489;146112845;140412971;138347670;113257870;101998465;87043697;72447019;70318230;51130865;42361549;34400022;27398973;21568091;19437286;12798311;10667482;4836540;1522536];
   [134184960;200309760;233325504;247882288;256651532;261231363;236571840;207854595;178618828;160145468;156598835;138315946;138347605;119549680;92560444;80751887;70349994;70318165;54673907;46666447;36260714;36226965;17263258;17229413;9255334;9221465;5446569;5412694];
   [134184960;200309760;233325504;248263216;256270604;261231363;236571840;207854595;187007728;160145468;148209935;138315946;138347605;111160780;92560444;89140787;70349994;70318165;55054835;46285519;36260714;36226965;17644186;17610341;8874406;8840537;5446569;5412694];
   [134184960;200309760;233325504;247882288;257168140;260714755;236571840;212179980;174293443;160662076;156082227;138315946;138347605;119549680;88235059;80751887;70349994;70318165;58999292;46666447;36260714;36226965;17263258;17229413;9771942;9738073;4929961;4896086];
   [134184960;200309760;233325504;248263216;257041164;260460803;236571840;212053004;187007728;155947059;148209935;138315946;138347605;106962371;93331004;88370227;70349994;70318165;59253244;46285519;36260714;36226965;17644186;17610341;9644966;9611097;4676009;4642134];
   [134184960;200309760;233325504;248783664;256266764;260714755;236571840;220572720;174293443;160662076;147689487;138315946;138347605;111156940;89136435;79850511;70349994;70318165;58999292;55059187;36260714;36226965;18164634;18130789;8870566;8836697;4929961;4896086];
   [134184960;200309760;233325504;248783664;256520716;260460803;236571840;220572720;178488012;156467507;147689487;138315946;138347605;106962371;93331004;79850511;70349994;70318165;59253244;54805235;36260714;36226965;18164634;18130789;9124518;9090649;4676009;4642134];
   [134184960;200309760;233325504;247882288;256200972;262408362;240684226;204192769;171148225;163807294;152937009;144609549;138347606;125843284;85089841;76639501;74462379;70318166;51012081;42554061;40373099;36226966;21375643;17229414;12917159;8770906;6589692;1784744];
   [134184960;200309760;233325504;248263216;256518412;262217898;240239810;203938817;193364820;152801841;144541965;141983915;138347606;103817153;96476222;85225009;76707085;70318166;51139057;42617549;39928683;36226966;21312155;17610342;12790183;9088346;6399228;1530792];
   [134184960;200309760;233325504;248783664;257036940;262212138;239717442;226931732;170377665;152805681;144543885;141461547;138347606;103300545;85220657;76704909;73495595;70318166;62915070;51143409;42619725;36226966;21310235;18130790;12786343;9606874;6393468;1014184];
   [134184960;200309760;233325504;247882288;258216236;260393098;244880708;204192769;171148225;163807294;152937009;140413067;138347606;121646802;85089841;78654765;72447115;70318166;51012081;44569325;38357835;36226966;25572125;17229414;12917159;10786170;4574428;1784744];
   [134184960;200309760;233325504;248263216;258089260;260647050;244499780;203938817;189104850;152801841;146112813;140413067;138347606;103817153;96476222;85225009;72447115;70318166;51139057;44188397;38357835;36226966;25572125;17610342;12790183;10659194;4828380;1530792];
   [134184960;200309760;233325504;248783664;258085420;261163658;243979332;222669842;170377665;152805681;145592365;140413067;138347606;103300545;85220657;77753389;72447115;70318166;62915070;51143409;38357835;36226966;25572125;18130790;12786343;10655354;5344988;1014184];
   [134184960;200309760;233325504;249831992;256266532;260393106;253273672;204192769;171148225;163807294;144544037;140413075;138347598;113253830;87039545;76705061;72447123;70318158;52961785;42619621;38357843;36226958;25572125;21310123;19179126;8836458;4574428;1784752];
   [134184960;200309760;233325504;249831992;256520484;260647058;253019720;203938817;180584902;154370617;144544037;140413075;138347598;103817153;96476222;76705061;72447123;70318158;52707833;42619621;38357843;36226958;25572125;21310123;19179126;9090410;4828380;1530800];
   [134184960;200309760;233325504;249831992;257037092;261163666;252503112;214146054;170377665;153854009;144544037;140413075;138347598;103300545;86268985;76705061;72447123;70318158;62915070;42619621;38357843;36226958;25572125;21310123;19179126;9607018;5344988;1014192];
   [134184960;200309760;233325504;249831992;258085158;262211733;264275019;202374144;169329600;152805944;144544038;140413077;138347595;102252480;85220920;76705062;72447125;70318155;51143160;42619622;38357845;36226955;25572126;21310125;19179123;12786099;10655085;6393054]].

(** srg/database/problem_29_14_6_7.py *)
Definition db_29_14_6_7 : list (list Z) :=
  [].

Definition database : list ((nat * Z * Z * Z) * list (list Z)) :=
  [((4%nat, 2, 0, 2), db_4_2_0_2);
   ((5%nat, 2, 0, 1), db_5_2_0_1);
   ((10%nat, 3, 0, 1), db_10_3_0_1);
   ((10%nat, 6, 3, 4), db_10_6_3_4);
   ((12%nat, 6, 0, 6), db_12_6_0_6);
   ((13%nat, 6, 2, 3), db_13_6_2_3);
   ((15%nat, 6, 1, 3), db_15_6_1_3);
   ((15%nat, 8, 4, 4), db_15_8_4_4);
   ((16%nat, 5, 0, 2), db_16_5_0_2);
   ((16%nat, 6, 2, 2), db_16_6_2_2);
   ((16%nat, 9, 4, 6), db_16_9_4_6);
   ((16%nat, 10, 6, 6), db_16_10_6_6);
   ((17%nat, 8, 3, 4), db_17_8_3_4);
   ((21%nat, 10, 4, 5), db_21_10_4_5);
   ((21%nat, 10, 5, 4), db_21_10_5_4);
   ((25%nat, 8, 3, 2), db_25_8_3_2);
   ((25%nat, 12, 5, 6), db_25_12_5_6);
   ((26%nat, 10, 3, 4), db_26_10_3_4);
   ((27%nat, 10, 1, 5), db_27_10_1_5);
   ((28%nat, 12, 6, 4), db_28_12_6_4);
   ((29%nat, 14, 6, 7), db_29_14_6_7)].
