(** The base field of BN254 (manta-trusted-setup/src/groth16/ppot/serialization.rs L49-50): its
    order is prime. Written by tools/mkbnq.py; the lists are the quotients of the reductions in the
    test of PrCert.v. *)
From Coq Require Import ZArith Znumtheory List Lia Bool.
From Verif Require Import PrCert.
Import ListNotations.
Local Open Scope Z_scope.

Definition bnq : Z := 21888242871839275222246405745257275088696311157297823662689037894645226208583.

Definition op1 : list Z :=
  [0;
   0;
   0;
   0;
   0;
   0;
   0;
   0;
   0;
   0;
   0;
   501946897469691483218857432;
   7849522438029016931631988954976072146813;
   7320231109761890239549238168156146575146;
   334306941714124577195963564312780828995;
   4535091940097805534240006851648353309824;
   0;
   3554899232344487064876265674827232858017;
   3716687749802514646391004728488062096696;
   0;
   12313869611060984679031709069360337360880;
   6157148752647816379087207523977257547433;
   7052033105772991739933095296798818469034;
   1;
   9334912863609893406944214092998710932105;
   4057088621625428432416699939059066523678;
   1;
   463901935592365573813950583500654308361;
   1;
   687331107130795130356776305507342879225;
   0;
   9184102265294085950194905052046295924399;
   1166263736565772577505360004406550306499;
   0;
   10045321516412295558475140274661948269937;
   4461330742326007135411171649191176572186;
   0;
   10608524265772340944489875843042768571405;
   1;
   6179906218556790551472674404031328442879;
   390672443818796938695231265342140152724;
   9237283590528647701971816629204278889707;
   0;
   1731151010505668487501782897082002392033;
   1;
   961396503711364985782617170811911337365;
   0;
   11238339212819922595889481886623667742651;
   2557825361040146576536296170187454856;
   1;
   7069420829499079820315626292940750552598;
   2448709588452144722345130104098317335154;
   8321312106701840829539681550347403656097;
   1;
   3947342385061652569250106974835386620237;
   1;
   2419895524184898625749137621655289500674;
   0;
   306724512821658810083081509967651315;
   0;
   4756032788414733935790261536705030631489;
   0;
   1470527829694164889966264428972947811;
   0;
   9796651881473757588329662237919526240459;
   7853568172087604001985529637239892130423;
   7161388320220517178652627603526576206542;
   0;
   5766353764757059866546524426218522973559;
   0;
   4300244019134519421331269792494470119300;
   0;
   3999874135630057374284397985512330859371;
   1;
   355894532945267454307581099327169206191;
   0;
   403232434786494923560430950783530494001;
   4158307656678669053288665830494848104298;
   8707168300953242308589440287582814435706;
   0;
   4480588780879153141673268758262725354043;
   13410721374003922061463816943039368697275;
   2768507179590462045279763147006000956237;
   4206697106792028491686752938784316505479].
Definition op2 : list Z :=
  [170768181221491012048872772419496816995;
   2532031960816503371480848312270410518991;
   44670353409433570301113307826675246028;
   3025422825805820408305290434631843701124;
   467795790750822227171805411592994603518;
   466671109910335208334095228409200763444;
   2386547902114735056704766679220564543634;
   1138208756935745544410864491181685937943;
   1313913694274498176366621240245999228712;
   10429334572415498207288165222975531005124;
   1281030747321136303267920742292756057078;
   184151922947000272153139623439607638427;
   1409313907411376153233835727006777082708;
   12951139359660633349137810423155641208881;
   834387089816192229126973700713003895632;
   1575738614883037141444568406846269808855;
   613547319332801024831542411697873431844;
   11999906783613461651597640667904390365507;
   1340643162625709790208203257284942851135;
   680025097188184130362554037345561282229;
   54200855613840462222280105170788733933;
   3691612048314100886450106398139621596844;
   400354549576740141405769953794004564256;
   8337599817103722568238642581428990642252;
   98809431160203693369415042791220774873;
   87274093513439735942003551756182989315;
   7175896139723085884645080753771483746026;
   269814050946392274103231222789197520116;
   4490680383200192328877185356877858473555;
   10496758533899723384356776074962972448510;
   4405157006320446936961690304488532564666;
   539953671646398562272199205885288631407;
   561459850013542339965527110343598283656;
   920642671609645101805939001405371060560;
   1931353508178460393957512424891348374844;
   1860927982437217167354247437727666315550;
   501759062199741734459407959007085954415;
   12343274305453499863946863237292329311479;
   1387277829191269924481326735643388647967;
   2867257045980179659086666661142221549749;
   2602523120210132895978195988796692251097;
   4637053909947983494598059180972715650994;
   1980841663041050669125075966767134527187;
   162587344425985378434480576690772652059;
   1484867271145313498590905658104924717134;
   4905047521551120054064305370263546549508;
   976754159817521888625976953274851314839;
   2301807069015529398882604551382800627945;
   1404638372959408253502930642668143834755;
   7260317878533401265901636096556100410363;
   1034618082189930260922764983635698540206;
   113854870096304313526054898609598664;
   2302390453808154441973643010905951869627;
   8797667510918444749490746421262126089726;
   375881067489279576783980553181207191711;
   4880780312888632524377232018012894016432;
   2795215820840585853809162909422502263318;
   9710203877339156669301759043767090402012;
   6699669077341956530865781461515548778074;
   4274044418056376190581106265210742682;
   1328707110172232519985959216186613196033;
   12835790275037613454625870072471593058260;
   3540785353532226809918515234676177888721;
   3205816614188744712503268225479600778308;
   105328518192108407537385784395144659289;
   2211027452680725287376302231433973406386;
   5605789043821444342453468102838226457838;
   758521376134189844422980946433428214287;
   8312009573716033027696770553654003513129;
   1398847992804271053105594505909760282113;
   4318591952082417836233094853620265305534;
   1247774589482423832966941277361427333963;
   1281428257925074531080977331116686433831;
   5632683470356722248474303478534128808431;
   63410545591250669169421235214897851661;
   8334858260457863570849906387436172473460;
   1004473116566090679824622812702532506569;
   2577681520180607699215054084034271184527;
   92592116363925983627171013703327971176;
   9834729455866513838113035941396171404835;
   102353474575176463798030098902394190836;
   2914561393760248481240856005593666925;
   10139999546919908698009514577558359025024;
   155442866476468980765480127541627469516;
   407647950108761978759573633327000640176;
   692076891089626547054468306654195003967;
   782653013132299399755676717725976137765;
   9897525399386123781815508253384627985039;
   4067796898877789746689790864347130869644;
   474360841539505108176944733491064364895;
   4865344424065157365311460739151402015582;
   4124748737779296933049785354615144482746;
   496510450677080201201515824993135770148;
   9906339338143608498962842991353775622;
   678922945757057212280567593875901200975;
   10090733241860575964771765203119032346515;
   461536971113888177146412059569456923416;
   2262442265008570567553644800087771123448;
   382354905344860183306267061178665011095;
   3345023974757284098029078607227173902518;
   620764651318640352662309672511078649795;
   2153081055206812642943584969158795928274;
   1238525605480472789275765300646888305632;
   689236297618167257834520643376698857079;
   1305381871199227209592199087157774192669;
   11106329801334930131691692364594218843312;
   4171228037579997610610220578190309302363;
   179891695451537434643346144340246228790;
   9265250094331146055943307408580640651841;
   4068091176922005067049569594387623782006;
   10831081965693025347874564139863888230489;
   1209577419266473028239836611501821558799].
Definition op3 : list Z :=
  [170768181221491012048872772419496816995;
   2532031960816503371480848312270410518991;
   44670353409433570301113307826675246028;
   3025422825805820408305290434631843701124;
   1281461805582825656273790710951575592115;
   662871390482540184784200800781157353;
   951728702178118788815706654401767129905;
   2673752517426570623620133779134613492872;
   3119639302865563899057480194632973061964;
   1265185838028272366822867750445184199922;
   4307089358396918859560239856618432618650;
   11329493317250689950995915832533036724518;
   1950479237132694546162591126272905700104;
   498571989513049896666747478246678188572;
   374363372871551218765848687302881339426;
   8450539229869631698190841785413570900318;
   170535359542983996956351815411204571697;
   17731727983729599652931668209724490087;
   10036082916128157234222498233305753185770;
   1511834605636104250692946716208638819856;
   8859248218436254022374766310204824582847;
   5413913860092221750758125227932395809113;
   1732964187683248127644917840419655543622;
   175088264787141337056075591395792760314;
   3654880065566490966746875667137957566027;
   1213762231912420967344166074767954265080;
   10798254584607035154493482445030189580979;
   5046929812084058008798228375589116368942;
   793184332119566503638775986907922353115;
   25858271746478421716496993192357496881;
   978485742062589057441528556916787006798;
   88178737958379188682280513850745899;
   6509922784071738105823528144198441693971;
   607732199998828760529924869535974642778;
   12174931696909254418728441390779089046638;
   1180911334430255160631201032803106586866;
   1973404617151833332791344074638095276101;
   1407364731730230707343847038417156292915;
   7978956192078512096464543085148948677619;
   216465912734519152889473051945243323154;
   170768181221491012048872772419496816995;
   2532031960816503371480848312270410518991;
   11685083599593722943551439958633859305;
   6599592004075180809117827843753501764662;
   1278985763799158409700197267851270972357;
   6368774118332328149147655526701350130563;
   160047693739585307138195897764315975723;
   6866317371850062597762962272269770733745;
   9718291213781649571928128652894585750487;
   265337127440098266250068145419964393626;
   372555379020269250083305959001456809354;
   11349765286477276031675843895632507949325;
   644760963903373987945658196955053170432;
   9565546026220104757860813160868148640715;
   4151812146809842532981911546253407466442;
   4565653839938635943275857145767641918308;
   166570028754376788833149132832356302615;
   10784911293002528262368630442620431390273;
   114730833883143204320756800912018090807;
   258414900494438761971980549024369731765;
   12225905834444947030069397724062045828887;
   1378165622431017112422968036154985513994;
   1175047049290230450323179093879988386355;
   2799945285463918334420252658054878507281;
   1462307061490458929531595558365255513522;
   128485532290431395849383754828917081638;
   1037994161906531437323669468288553891210;
   163527938802841635104452170192140004766;
   57269177778962153342688378225973716339;
   5051091112236665023557423320220625641158;
   472252253602468071681320674493314512033;
   553487025933500167692148544881005139689;
   37523560259797033999897767459606986095;
   8983986772034213788584702215916915569199;
   1432677972616165246679269211248475621488;
   7688310475731177039274667611400342810053;
   121011640568875106513619720404056853007;
   3395524192628484955548646715481874201395;
   12498577281038297766596261606067836552084;
   1383284742009499798970881759007579778498;
   2864603350745075361094549946149211130679;
   4596932548469664751085965745902123849354;
   718346411790423078397256003247720281625;
   2292659864033546469261255311478493303639;
   10625134277409025608883495256644264997901;
   7464600427471522330672537245077462218824;
   506103374776325368574310891880269616793;
   12723469099364910485005593112797296950696;
   622131440376293355430459289937601959095;
   1234888039891296856277656361139260151699;
   7556480041652194134602405754157715412182;
   5032080184307540662414409676486465815007;
   1039934002225340077250784814393583401583;
   1175602207323103259397106144367641192688;
   6069781056326865711855008786370196232877;
   7202069090387197829270701793282599334208;
   8617255433826099289957137030148308831799;
   8096538308825483529038743406084531821;
   3334190972498528157568908680224533088130;
   618650341654350155340920951844083849682;
   5995479627158589363148970393105673949866;
   1098715358850017710179968792761133581094;
   1246994507512944791385594393987307323133;
   6046233212809709585943040393253909041071;
   931788345976639738372162235653772118818;
   269936297075631125730071185525593271534;
   8380330693344224599836604712585484928488;
   666788806018167565386525100656404182789;
   12594851723985003952972899377601269266950;
   364574601221555231364259254692548606883;
   4866493883015478865574112565454018506954;
   7359873737470765595818069549904053249051;
   853783610873749623804936102230538772427;
   11873020992328746437769600666235815494612;
   607902234473825697037718812332648940419;
   9723658133273664108233054007678685652007;
   1153354622387357956930780725254897435929].
Definition oq1 : list Z :=
  [0;
   0;
   0;
   0;
   0;
   0;
   0;
   0;
   0;
   0;
   381195485079380042;
   0;
   20109635302069903238363856042069930295466354700289337620199437627998973785703;
   0;
   14147364093408905578416366268098978555569716297774334254952901477887391898282;
   1;
   4482589926117521849444948801302969549920114624693681649393428631217870769074;
   0;
   18219157348536518741804505634804954715451970780372037264614878430486676940386;
   0;
   7385112616351544202841149930519556858374520192131146500415549505393571489;
   1922631805167991317259252615074187925558252599643854887303475711529203600576;
   773375028134599283216930644923585146858396723235186371849510370522498496407;
   9490138660344298781412013733741079445832035960058318854891484678973616898781;
   1;
   3422249178439633872725986759998106747607223867972638968251651273341557085448;
   284133256841906747583970992388339136589020255321116665340408401061621379546;
   0;
   649190215485552284974095970788679472486619196450222573729208631898627378662;
   10066040927010811984337214233546154138381326390179489063203129760367901440575;
   14517686298629007837812753112358190889882083421200281404161467033378012764774;
   0;
   5678584911867753816533269843704990987244088977035898888472812461078278611219;
   13241734760417478652250455325111457872732218100393280365018735739223623220613;
   990698708675281135672445226622159332642349973949579841194176185631573300548;
   9769298895751990732432883012020724121087438360262921913781304667714151780531;
   19666027109207744661286775127787883791495764752655055316444909573142082275241;
   7077841004889313526543183675679004033383392433819907919122781338705661614046;
   5053670048275325045596131911189945434596928069570874633932396553072573321349;
   1;
   8836228719858160004530951966135672973108010268402667911801729914902201053772;
   0;
   20941419678341848714306633399928661278692817463017839662945298998528197055436;
   1;
   9256908831318283222902581522492569377665501278650313144548590617312493224886;
   10783610462772175516332869090695414435185542980227351800260705025050138256850;
   5261270782018966622356487034938651197550666923524288117977498085343792408493;
   95343988408357168253784442311656744679995861791756301334421870331892153264;
   0;
   1690472862170799305458312085205602424381760134455266270218495739270048919575;
   9631814729836653616936913256139488894386456544606624371957662948734856553282;
   0;
   13456369318203952313655630179408281938968756755993955747588087383416646659474;
   21238057481115245504581187622863196377509540267724470673462480791007008055969;
   2462501549037849006006104111732649544032486794865484210515281775314914021;
   81933317243755920801701048141768288529498801822227196795546435874123379901;
   9858167099472320569475434931269267529888043407902954982654649605074127730046;
   85108434126759135887529472364161948114368464664110220716844995233866768899;
   1;
   3347420754233615080794330629218803808588866565309431696236975776750011259535;
   10269531487507332730361989157581423378745705656908977902779495004539176589717;
   1;
   2129304461105111469912413685249611038206701396354071413574040327084737574177;
   0;
   14229890338971084141779331586388506310361565541275454819829231469362523229587;
   0;
   1878997107563591212563283386464549895202082955706013343331976753095231786861;
   1;
   3658614732633328929748135518585161214578138496898897621214706982725238198546;
   1;
   4410485687592367130430657342855147554549519440184601245702608970195817823805;
   1;
   4590048331002350516918688344018147359642477841691669609651089568407520019341;
   1;
   423623184925983473306956787707765050324203908745065050435858826452714051592;
   0;
   11893874317536849813414469388886538946765606102395635311302851723680607481832;
   7096030542877438981215494892857131312418761277849857579752840063942824799792;
   1;
   2956065309925635691174356604925657075535625255232759000626733875294266427596;
   6780661103165742617592110446277722121466908844381824229280673901023522130781;
   19426641831931730329489339127032451126985811242424433186878430025411764237490;
   0;
   6373628410320348062063519587989800775698675123989485974506756506581119001646;
   2323712129647310459073667225892136369243423461698213493663180396588045490069;
   1259320691931507389484748258022593238975742129493536780686998346812291314166;
   5084157334696481242774446705798536136525630351323955708925911709301361363368;
   0;
   4928494808423604534573280775097976196502970536747939250303884677358211849990;
   4742784423664809102065307773727445723167864444612269277609545430020537120634;
   1284230233981785742904890229990789609634422386092797058748419205948863444268;
   1;
   18435079889428526856972430018100250835849604929181268312025093781429815377751;
   8080087786997464188313358361925466704374560024066445348424725209990847663152;
   1;
   15699436178959316466526695097700541935847798758583448252356808461402662809709;
   2788411511342350539043580910262600084063385458345297911662584272604677714037;
   0;
   4969882664576084350341526337210644883982786783629379994667279031298319114284;
   21368392428442712450831026476134017477461232386019066515751514032797176540863;
   0;
   1085031335437300257744081606496531269215706355915792488202273568006676888301;
   1;
   625686282090693402172500325225644053545117228485230002626013379762749853986;
   7866631133795377783441082776933651837134165859918067714820543286885452827290;
   884183842966706371367050716641302708330495619301468163809311994185528169937;
   14582679185081764817594001572063536806881799806544466365220761599190073094963;
   1;
   9227610664852373888484883514759352079444793828940830447367332737330467014625;
   1;
   1629304508843840793123460893521791087680058280776864770474334355702748989551;
   0;
   6350183687602098947024112242273338900925655703713914061910178822363812978274;
   2975937256705961034872359260313948905854537789249555212406356773109305789636;
   0;
   16486491062680947335266114880537209793208782655664836279694314347041854119488;
   1;
   1943602101214982456247574213690904357380825176960181529409397748698318540849;
   44311977742570285155084983240139366328083298296482910528154869708329226899;
   12095450200543944244150990756514502134035339050688317345620698211915330631111;
   3146785768101455353806349413085125638644704946823757682185980746031561889281;
   1;
   9968198838723358866413068421690127117097606550915016272618279035836388749694;
   7944281528915733170144410862112760251695829108896627964050185612359495840825;
   0;
   1625406568653250287376725078369929298742397295312206987202948649381429140687;
   0;
   8277779611583778086260322444524345020136661391588955621538238298348649762701;
   5088276276612555477154618800956175652013808860108693787946852819257278047436;
   19279238341068848212751669378298053413001941609354898706725843754031874157173;
   541556607643652839814097881469667107760649532673367143410780928663134977658;
   0;
   21869562427248709667561721945531605189670576849766660444835915663354310757745;
   0;
   17464366370546244700261526909535290050815566540928460900406162636271954449512;
   3000130563465970954309615420440211919841435646213366112847820246884573179518;
   0;
   304843584224295666813868733952172067733247674000549159284089313228336294633;
   235190591496254754438406959136513591760332965608752792125220136028047323107;
   1;
   3888678830605861599010538613337233405767262711713564855559225582826883926237;
   5997401226760889049672393544376959830704692054460543361018644406547697078611;
   1;
   16853986063696086166375475209553976025512216488410522296888583008319815815906;
   20602971632986919987461581092258152090689779451564060697132255262313044233614;
   972066036332615498374839597219739948134780638320246620342215335910909431015;
   0;
   6152012188717478020674926900204218445526168405047124398282396990075814188005;
   0;
   10551747971872001153948733424223556738988932355200972723864752923817494475397;
   21069092650096693746371510500418500553335991311079081699399806730229465346646;
   0;
   11750225509188976751525904115275420086335919427644543092492963163562541775023;
   1;
   8196955453838524145774885524102720584463511442663421881862276974672376999264;
   15793686112599824514737366488683832644945546372085066721669220621348329434845;
   11399814992911803829926930339257228504103204320182779316164031759303832111854;
   4873344850343981680899616587869976198532193627383684552949159791937444019588;
   0;
   13787022578151437578586944470443300155875909950673166339674475655597698649052;
   123585579733760976149036135017082104205853642984537511731849245038829496770;
   1588761445392065211389890017935142308534705662484341870334575246957559393624;
   0;
   5167263620524888224883145569732647870454705490510379737268716118146900170813;
   145705351297365923443463837627402269470222122241992081705724371564955511487;
   1;
   3930053723043244804518195036741299576774995462311005275296461545195433565200;
   0;
   17208720234478704483906503733879073025291800727587790613661753373327136920128;
   0;
   11212595989764263438296435919555632395418281090242883840502073870426108488940;
   7368503971328255326331646383203037989277723779849702032132886586836958116892;
   5898115650095494491996968915570362745731896681023164142327528449516006262079;
   1;
   12352098782815931650143536369103737184400897655564144000613590442279880067175;
   1;
   16805593025594984021758706143130892635778648387595961801831277599814200027200].
Definition oq2 : list Z :=
  [19238074203850603232075934733970503619080248404937198273859482994282858037284;
   62364246092568038487843797424838160046389053177325094074683747031571159708;
   6672240505728306605573235773690991160564166835151540889568402418069339256107;
   1620682096871819815405055300783697389587096132150360566998608716917243440679;
   172673695976629647393611546709552966557130308767821777230812719950591596253;
   6193728292163846686812800520056982624145203360743723426857896631072321168465;
   349937087453244938650308336451998425223665288634199571804742323686370281678;
   7464155399221504890751328277347198580542443196201023125577143987089850818388;
   19854764971115567279117329503899493399406501039129702697745576689544002590458;
   5663891875708295668181057207827350864117154958506018584890447652899248371;
   19965117554832470942377181727841006688349343770633454679777441340208259975795;
   279837445587586118661721248579251909492847035076450117132476337806636222088;
   17986484502493965288937086377846749084862141476873496206633107193652807344359;
   687608210074462491014855789301031763240037691955976282778192760406524298936;
   4123943877081162673224691745315925051670549548939246087960999641294192346018;
   5897967110490847702481916213442917428185585319778630810893887287616108168628;
   6108959828353281685381564891707885821262293835797632271754686220033393691784;
   12892141837262942356407921950708442964700299733257772819870889751282751014321;
   6239438180570536747078891855689180623657337318819025567727433179191053618605;
   9962555380739875074534934224330088226105587402163586868248156122687682612206;
   6702178885118583806937770743407644043415873567183889947765163420881781550853;
   3458227012184922284839528414708959601758887928437408207787552373576743595516;
   8699285425420821982834053381504210660900895074042192060081083882090107941930;
   19315116356108265395111629224126942476013670638973219919201155389444419246110;
   15571906855963755085423840116431251471986654786130596036371447950086047280038;
   21194005487510731422657742217138350790254362867380875197387139333402698328017;
   9144506496054763573867296889749153565710618951847533894936078956727863421217;
   2180824995227846006036871873198812429684194158939589129640818385817678241637;
   4938949011945588468428300545805630932285149671954375090282214673115073357175;
   15280706256013004918913276455819825321429940390872571712418529819865842360938;
   7556482818583578235286014967001956778792188161380629686475687497912593279386;
   18790229951942331125431476357133814641550061072947714122585734347101003582088;
   4926104180925075392735345686188998595640290508588358927729261845262335609151;
   1469990874840138926947989365116606997307946882740236001837698184206611057664;
   9568166621942434385609363193396710752876752596361220734232758990171812299436;
   20924644415637126657506760525399810180320619555548884225654586933325434554709;
   8987701339351765350350096006393673971466405543969388229482586698500360100080;
   4958422739241743980627100800745221126273732440669513901839709751192645120774;
   15102125094109034397389531952369932062205854058431131586119289732206317684689;
   450066030900351227892106830109971744467914419011059414580099453239902766627;
   963413879485533681182588712563871455351703194006315502318617029392071353383;
   4892827911436993069150673133420649373922118871360394634363504552822454710564;
   19499271224132938553250126003188317863309648437382547047151077544790567991380;
   5129195836748225869769082037913243307568850468412546617561568613502978349495;
   16032858394347992172847972846626207653612161560000781415336737773026004153987;
   907860766308439626582391642477264449123918873367780896749832541878605193206;
   6723870951407384282487541732196194806198985071103615595150091138730434053609;
   7404112142926461850110519060004694102588577797240888114441798879800628299362;
   9137188512645844943217837957960918890213554409874081787930850223840070902158;
   11482734788550941509660666627336260106068880517722434841841362909354419157048;
   2321071780105949499890967879767790742486383036561060660251528666414901835963;
   12662643479188283631359183689376182912141768940011044409225083520376807523828;
   6613717529882038894412730327731415040616910173672918870282798166615644668267;
   1829365289923200008393811304950479233114588640613105560196853665248654795870;
   12354120776248382891055493941639267625312916870295669747538152181767137814836;
   9767993500666202015141802842052170594987904431806262095675085544658258904598;
   4700205758184492240987341554931100619864109980272996424361905717364446603526;
   4415738324402897667567198305437252281908639273062632948811110424498344473032;
   851701382177683740956011396666044351898481962507251339152800067540271984297;
   10067156740665155007684768432670727184752317421216746194054381285232807639648;
   18572115173250787427024658120035435782165731058139924106095178496769594173278;
   9392393087026615753691017082759978613235945007963194130504501553843809908119;
   17415469201697549817141237992086921883081925338346866568329622204441673640810;
   19064661624599511254826792748089232416028843853139935312167439641320036007272;
   7301415809677176279163021061459419448440617767102737028794028159269230331666;
   5444691450178891479644867054834576829764523345372610353879728445299734467263;
   40509366634872029770443794777074180924923682225529808705602215545448844596;
   18858178837886826085379285979636893057061120301528351183767177068236892831696;
   955171540853169302162730554104992885723520114362382528040954753135176740270;
   4365556191721658214282253983072585607385799004976928644246979644860316132722;
   7788071482708632741787624447571197023910315396237013001726800323698818564603;
   21561373594126230540149537856979812758925909584033190926355999117114872046405;
   19254198186371387250483390240733781795283427753976275108715386113840314176306;
   6283494016837552361838597309692007265318914215434323170786912529641310596798;
   15395906436259847249666911523846107585828288165495049268466475548699459003434;
   1850526430632738935288379929160135609874316287158722562263665130473600475117;
   11554792879921464037571689325855731782631569866938519325911827651190745523501;
   677290036752732995294574402146561265706280722812869556942536901065701776001;
   12783002693209350560933676849164065705166384565282207595337440753693032577964;
   76171978195010040657450954022198031595497735187743186442926197317276166015;
   20302976931999738977773237868125410999569228460172420719455684475101312380136;
   32983854089765381702750112081150083665697814665664491387319612268850459384;
   3182581322879502704319461452935494540426496531127194630299055963510714370673;
   2433861866104323029454944885587996571420341828786385559948572827279626042861;
   1592677727509604847314900013954799997281953773149953433056867908160791902377;
   16709189603306564056393206128225529765630063901596020018046100875316653125876;
   4384421002997996663833707556679490580748641463215037186124302118046052694596;
   21505987595168315945517948898248131345487949195524684993633379211208953633905;
   2678765064663627614501543220170773684886367454307520077391103778866803117184;
   10682616688371192115214523616028420625612141415223203328722661353644718784107;
   2386350723827135845020757122342868980068125409588939410835479923344438874396;
   18495164869162363597908255687173546117068407246763522236393366997830568061825;
   1295747388819023334798808239414364408735133612246713365803921160540456062505;
   745034740852984266489079209528652416605513233664805342817726045022700935021;
   12240347738538345450654531373809669101196247704561648173666111913396571214897;
   5322921740442825163500216020777836637336675798717771679715164968731312993566;
   7978645153318837242997818644362297053620749598870608895034982027964787740331;
   2175059641960013375317264288928714209949038776174526500276569040368180091903;
   9535331770943615501440808578201244279339607112751828398777838249236737048249;
   3659292321267958452121918862028843841402966501978301948402503536154524839757;
   823953617861042566618496833581890983308040934151629774983674737356257637383;
   963880109071351654930592705854705844042450112492046285691606478143951959669;
   1218296115757117053000603741203788498437853104064499575688101749993856945228;
   14785163984819280263102475327028275371875702510387846363389832663620802224826;
   3909479627983390655988601633494928893704392045402078763544697977998111256875;
   5450929252189867467675342252833644798321782417832353754808804404235223540473;
   11303853372227129695438648374890368636995761288218205234035784675120239499950;
   7120715964694917635992131446528931594481228767561731927987953351956133273917;
   18546636347373520104485140633419213514635367982889900528611420966712544562282;
   3787096976699209870762188009325060500417415445656008241337511840812206734561;
   16715512805194495141792168073427551564795367097859177724047493203348792188884;
   8554154729014748311369961734273684593733185496451035845171623277413825792977;
   185620808055645200174682363459428113350878400289229466007211219902767515352;
   526337382526921626704996982628151946256812218816037210893624670674892188;
   8523824738791789153919151067235307523631218332366883300404615633021592846970;
   5904166835943583084908341912148361507357367200126943805053730559753699829399;
   17072236266671437927908503627433000330329010614370675342194650592396890526348;
   16333151554714923648973898793674199649181026852841238574525999203311337946822;
   19033774931408586328590657012650909417139505508439406342777376478276651495023;
   6523216273066527575602857276549263082816687190248130035343760683545133275724;
   2199278233803547575884468412030535620987976982722701269354967935154639982645;
   3416224906134977451830711586968265498220480881415308306556391818366557112989;
   11668054268917501472572933044014163507726741308885896217484100109252847590925;
   5212592348175796062563310966875455804880926791856826954637046511084994428949;
   5019539951369711161215805878736585252958966730779872718478754469270962675922;
   2890174081503141114608465737613288490163315514887643572009804580085615124403;
   16252506390490135405993103841417790112661898686886457734333296728498434173960;
   2408047988674285325925982512805957437989486813744520086676161955352436226351;
   1718755486910044796608690407539220283690013760082362903772320571101997132533;
   10708839126935610345385959449386548882647503017350290631154147377007835821937;
   10620919825552019306693935448814117507408878477314990827142712678069108956337;
   13655675902901194979197592046431184905954620242036505923267751941573351840995;
   5725725428790796351459267976252958661421855653836454929406564034205282156990;
   3454798889529573106887873420343300320665263365484166065471591711953653735680;
   17489274388757531908865743796447719013074622347467783732695172089998522809263;
   2618000173571616838433891175299141640088154947299929106806198910807971297448;
   21671572047955157856291648727172512520279883525453656153511330613336939409340;
   688769857737741063596562408189700140638438447326989646988709736969541764564;
   311987515755451206885961714427397115587633588949679624329465508361341280871;
   7102475173608369904749770043673829852113953090559332351698164920210305674868;
   13292950980049415244627683364637424374143748470972165549609460785696984374772;
   8010357146591422839749691643429541583475046176961193565006916367017735844711;
   133517368051772554852429096783763136864217058726685332089306973155506767;
   1066663422942203665218290409288589960220476504786800792474279466703887066446;
   168150082308829478584639528919322886666491355271736020360296063193601039556;
   9655686347774374026281927638470838173248469585487151318243607650422770423868;
   4101175662373667187651981581651254160756762745515951661644363202455674075416;
   8540839258896610928106735260749794291712858101437881347228361479897290467780;
   13885960405131746003602347562748184940109860229408243622811386945293098825199;
   1685224918023440742267936951875119150722068153273506057705919428738766332901;
   93251216014653473933867272712523088248610329518626801648453679697649504745;
   9510807493150587967163484469724788048859317779295491328911814166230918731724;
   2994849673734582452181355406382343169415165509809169252616725928817621769959;
   20107619275393065740999202706174162895508846328415833558169986901956445599159;
   8603412903470251371062279865971035188840889995792712998547915207045779290281;
   18500001262220718912597828774489444619388264172971051496616756600861358920526;
   8671177651641391839759268920993010087502380363977451159063881816640826785971;
   19126265659414755275084729830065677893252764179751225139495310987983687683839;
   53215320132522112559814836234283067823282020628744430759498730406177162710;
   17935001786536119495631075654644037769318467546105025737688882380970293688198;
   15262667509675788151924604910758561268356434310987674712855252453398067676414;
   3416630241611980719111548291052145103851931104319690712841552389683821458651;
   14956431528598659751191806750566807432062823831880598012581318370127986793389;
   755656361680585840350306939258471452247215846012662140587008157158526905376;
   8966643223593238630165603056282073885380013748700399932415113486684389788438;
   7028270164127046157053033086865275620635277549119812653173110337954298904049;
   9845892671694128103872225093346830921972162147108690209485619896730590966400;
   352288315014795760943081401432589218156818234043364646364073299154932511570;
   57072605584174843100654519568595943636054719103765580814662554803417136881;
   13613887308318445796373270115465867295590550635568688509717348514360219246438;
   419688013354223935447004355898314198517871884088799918285900916321320437467;
   156264995040666383025236983757878171932804491399449968822042152458431457629;
   331587507122853437160336184056892400177988366665167313932671049409591473464;
   179721599251832338961716297542650636346864036778577625937486548978550337589;
   12389441919696980030106987417106485159537664283706006246556901580528593797427;
   699538150407637626109669288684771194050315576242991743495931434948164848386;
   15363979470037798579658459979905344018366134499033012780550712294351277644861;
   16947306086640453144223232824226598343026565172982692944698055051448357584206;
   5651474360768321710305338293459694466340423398197956337050269957150900356276;
   11471228337974495983648186100306632273564861582216511502524952715249748499143;
   4568286480865395551264295841621856160306412964883492514906413095687059175693;
   17156754443111089301058063097859230659437927445104809505300604977937365664511;
   16006992898113474160611250365742257709631458706215110925025541800392095925262;
   11883882668078120241938128956579845405102002003977683314278682845564117760225;
   10001743184678426699824874721294157629927942981102145951602175267503365002912;
   459041016850928043757344223505840925311637389904675239839110644544864946562;
   5478744315521327809963852810526287202476199693461451919913284635371489759795;
   11797030081693659673634948062571002639905453841843137363312605358757386072636;
   3696237385951330120328038913009976660879206132691367710895447337598683347774;
   571386820176648375601120324894201389603744155232952989479521362015802004821;
   7975628175663656077914145389512817919650687663466810797432486412924774450014;
   1268124104188175900228147410610557532388015127599390454492538017530420036020;
   20640130296094514229340867760989529319617262028296508058712044149234174122695;
   4157751069980098114560835425361435139478456644670710280123052455280621371933;
   807706780728004634186289179490024930730219207764371874200941797143508517788;
   7767014481816712324395367008780593448643405055076675212451459320561158913616;
   3640922097980666094516011571895792265579596148601278263011623489930139288459;
   4071909010538316902090147926377709276541058872909308670776918893023291830549;
   10045334125319058982299502594446416921053576633424456009920151963599505590964].

Lemma trial_ok n : (trial 500 2 n && (1 <? n))%bool = true -> prime n.
Proof.
  intros T. apply Bool.andb_true_iff in T. destruct T as [A B]. apply Z.ltb_lt in B. eapply trial_prime; eauto.
Qed.

Lemma prime_s4 : prime 1263766531.
Proof.
  apply (pock_test_prime _ 2 [3557; 911]).
  - repeat (apply Forall_cons; [first [apply trial_ok; vm_compute; reflexivity]|]). constructor.
  - vm_compute. reflexivity.
Qed.
Lemma prime_s0 : prime 35385462869.
Proof.
  apply (pock_test_prime _ 2 [1263766531]).
  - repeat (apply Forall_cons; [first [exact prime_s4|apply trial_ok; vm_compute; reflexivity]|]). constructor.
  - vm_compute. reflexivity.
Qed.
Lemma prime_s1 : prime 2480874801745591.
Proof.
  apply (pock_test_prime _ 2 [35385462869]).
  - repeat (apply Forall_cons; [first [exact prime_s4|exact prime_s0|apply trial_ok; vm_compute; reflexivity]|]). constructor.
  - vm_compute. reflexivity.
Qed.
Lemma prime_s2 : prime 173171039.
Proof.
  apply (pock_test_prime _ 2 [13327; 89]).
  - repeat (apply Forall_cons; [first [exact prime_s4|apply trial_ok; vm_compute; reflexivity]|]). constructor.
  - vm_compute. reflexivity.
Qed.

Lemma prime_s3 : prime 13427688667394608761327070753331941386769.
Proof.
  apply (pock_cert_prime _ 2 [2480874801745591; 173171039] [2480874801745591; 173171039] op1 op2 op3).
  - constructor; [exact prime_s1|]. constructor; [exact prime_s2|constructor].
  - vm_compute. reflexivity.
Qed.

(** Pocklington's criterion with a single prime factor [p]. *)
Definition pock1 (n a p : Z) (o1 o2 : list Z) : bool :=
  (1 <? n) && (1 <? p) && ((n - 1) mod p =? 0) && (n <? p * p) && (p <? n - 1) &&
  match powc n a (Z.to_pos ((n - 1) / p)) o1 with
  | Some (c, _) => (Z.gcd (c - 1) n =? 1) && match powc n c (Z.to_pos p) o2 with Some (r, _) => r =? 1 | None => false end
  | None => false
  end.
Lemma pock1_prime n a p o1 o2 : prime p -> pock1 n a p o1 o2 = true -> prime n.
Proof.
  intros Pp T. unfold pock1 in T. repeat rewrite andb_true_iff in T.
  destruct T as (((((T1 & T2) & T3) & T4) & T5) & T6).
  apply Z.ltb_lt in T1, T2, T4, T5. apply Z.eqb_eq in T3.
  destruct (powc n a _ o1) as [[c oc]|] eqn:E1; [|discriminate].
  apply andb_true_iff in T6. destruct T6 as [TG TO].
  destruct (powc n c _ o2) as [[r orr]|] eqn:EO; [|discriminate]. apply Z.eqb_eq in TO, TG. subst r.
  apply Z.mod_divide in T3; [|lia]. destruct T3 as (R & ER).
  assert ((n - 1) / p = R) as Dk by (rewrite ER; apply Z.div_mul; lia). assert (0 < R) by nia.
  apply powc_spec in E1. rewrite Dk, Z2Pos.id in E1 by auto. apply powc_spec in EO. rewrite Z2Pos.id in EO by lia.
  assert (prodl [p] = p) as PL by (cbn; lia).
  apply (pocklington n a R [p]); rewrite ?PL; auto.
  - lia.
  - nia.
  - rewrite ER, Z.pow_mul_r by lia. rewrite <- (cg_pow n c (a ^ R) p) by (auto; lia). symmetry. exact EO.
  - intros q [<-|[]]. rewrite Dk. rewrite <- (gcd_cg n c) by (auto; lia). exact TG.
Qed.

Theorem bnq_prime : prime bnq.
Proof.
  apply (pock1_prime _ 2 13427688667394608761327070753331941386769 oq1 oq2); [exact prime_s3|]. vm_compute. reflexivity.
Qed.
