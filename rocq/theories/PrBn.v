(** The scalar field of BN254 (manta-pay/src/config/mod.rs L67): its order is prime. Written by
    tools/mkbn.py; the lists are the quotients of the reductions in the test of PrCert.v. *)
From Coq Require Import ZArith NArith Znumtheory List.
From Verif Require Import PrCert.
Import ListNotations.

Definition bn_fr : N := 21888242871839275222246405745257275088548364400416034343698204186575808495617.

Local Open Scope Z_scope.
Definition o1 : list Z :=
  [0;
   0;
   0;
   0;
   0;
   0;
   0;
   0;
   0;
   81946369328870843442113;
   7448897208847636549680726200491165416361037839879011804035938575070969675756;
   20890357177727330381622666148741258762521370443661567737596155538243863030196;
   1587280647347308257012754028218627915228092089354943414710058920509314828298;
   11680938081814399536383638467214552476098439892813573581807602214890683829517;
   9908412981835715446133950470520101718449565808218306651412924090996750750517;
   2317077590108116938416233166949984170237972305953740095192359724604262072;
   2;
   18980278358990098751144163256161005883027630423356950652947450821997174695821;
   15963488968523641185566551048799925524814488731751235673487645409653988677634;
   0;
   5756987451921879655776439343315056557775830901436692978164933269747342809609;
   1;
   8572550953754170307451818290686660149510180416013523592109254315473496612310;
   10372347518126046034511440133137222432175605025455594208107926621075630407854;
   11305103090856220490181246492588552115766435899721706646526738498094420622556;
   9782695147096358499550666305528208327487893588877678174659513603253090075694;
   0;
   353495551468773523959381333873185035708781873671874085813933892321048724404;
   578527513949451005692728778993544383092127409364307484590184815255690924605;
   10240820334181843616488728979574963278821990922384253808129318268060841805409;
   4;
   16313164601971482671697099948995265121499012852061174294867299811017529179453;
   7086779848530123993952763377166728944025917534996987081931459069218175686715;
   0;
   7306371433438291452450855903389566384339657577591477366066647359480262113683;
   1;
   1503736773591600160153481994070695880097086427844359181585586054683394478470;
   0;
   334042169008621383339742231026417789505511853966475991073243059301658292853;
   4680119826246041384446026652291690022050605949098741858978198581483515111707;
   5363448914240888581234852649419143662113014430404365847134124506220986466585;
   300401961217346081628640400834727022039573877677138156774041354256326938954;
   3510625355260138020311973329322530221472581549175963714523769952469540700063;
   3;
   11349037263094426058487491724710931046146519267872589610922174405756273550051;
   1;
   598651320725783086054448057942427751202922793186002018210108615209346142476;
   1633282561615441022388080338414975722357819161470594764155918367584765943233;
   1;
   17015042102298959925373085402495980014872177399680658145029366051412783012600;
   730321214194649671398531684922282019576922441722503811977714068230725648613;
   1;
   413298894001716402511345411087324821935003861989370183002958410224854870405;
   4;
   7527845236449459592662223298965965385290641033418283903643469158209026301595;
   0;
   19647838329438503994601983553834729818043799792476016813219094158532464815644;
   19865403669225578512511152006688931186358433007819054172567067596059649356346;
   2;
   1912793076968272007007677265091001028109898172624175101311265336539783817949;
   16355833951984960852368215170208657344666740012224316405174167556490411724430;
   0;
   648834043890615318324335987674323534453230774688146749436982297823702465168;
   8233833087116518314512699403452844909175301247726369544431247646366520829553;
   17427145045702878974555258233152635332885079388437103013994550430122684419831;
   4150630428549006234305704080962534492805177771380170642228042452072863902497;
   900660372550712019537320940121706955334012364579601523931085839218935103106;
   3757481001840671206032814504407574485781783409345919826768068338025119776519;
   4;
   20116934128184806689481572500666069297517758425819597642185807976529809133219;
   18515686934274919858244899219137447394671951124439614445852425178293459720940;
   822334746486380563527199698762467225621500314706675340913595463050783401222;
   21665530854997995685907522129174566059615745316241622812849403737564763212721;
   4;
   676138144566163665917322051759497972766164842271044197391591036537317739381;
   1;
   16791130872031029638440330993686512123403119021267516745553333371662280525448;
   10706712199333841875008293089331764616133860516635795897685487115078584687263;
   0;
   11774454113375737919678096439323579025575358922812378318673292917640157704864;
   3;
   2840190720178182345811945656311125253022849836339171112276121555247045268961;
   10461191257401538816087214100392955594060892615066362283718611734356076796276;
   5575154722116758862420426602161532388342980721766088735604654708882468326359;
   17819081644668844310915520215880591762571320888800673645601781030922371069876;
   1302696147037546737987190034234356337887616802829168891630190922294675004641;
   4507561625715113554651936797762140026603943958956809324508382762847789642709;
   2;
   5187637872642371980260067690672101170793331291950080370142703379161172171811;
   19215862753211804889955651630613760505355843813355823224437166407053797866126;
   12707260038299638059244915882717681419163108731555073855880225257010801910289;
   0;
   386776343649196260919310000487323482333714254411157486298898301376701683421;
   1318026329285775856877853497922208865525303308855301412631039168106107918874;
   0;
   17320258093271998794241745722061693424262374657351447616632066795569359143461;
   2;
   150731981187954611407838726838484540917682489189535779059111905505072500321;
   267761953287343917354273434262722341064358214411663586854876879603868198767;
   4;
   3934715925756677956563597806768094177122706488863341156603942897802260505375;
   4900670814305063380843442061655839538580693316943028344432461533313866653059;
   3882199638238027223139623670331321358499573382026164815309066794954165243488;
   3;
   2094233049355791123356922982405353367013754024158081278188700107005779162249;
   2;
   13985090454975133458109158753828172503048398030305398388504220195376598693783;
   3752217209658146640060875055737480894394999704120884304182654011819344459151;
   3;
   8116992379454278282351267555438252528378646078092557556257467216833351176326;
   2741378256717067327822687414811216511163420916959193733870568289795933311996;
   21819976837131281524891909185427158951225161557366129087737446038678672707865;
   1;
   17069040771022626297982648203868936748773528595302598656490012373889975354103;
   2518226406285212447744299217804455653745642158313450650503402993299599639987;
   3;
   476432951458422734440780780451338437492398616643914375946085224485098292510;
   156990775777421475746674476961458449398131995424270048331673335309375778641;
   9245008162521910302759726594997255795396608033950596566093423082692208868460;
   263484203747627049329150765634864254873912404326713550210045945179959783609;
   1;
   16993126650737713242144532150556216705447713777807483680662374089060219168781;
   1;
   17701747129017170530535869379067840114521458370725171934165264462429683503402;
   19601780042724928794652108766956824017672727814935542857063744699204518687461;
   0;
   18678653089805513614572578870326806121551766359334910154259113627280250037481;
   2;
   23702806011731687091973687538899558913745654853875058791247171357663415380;
   0;
   8127505298275993098787167412517098691957488969381396118017581315255041601372;
   1904247328690556103808642662157025121842631043314796657683891449264063694000;
   1;
   6322666296752536748484910443788156841941758723802297657555986796426630484208;
   0;
   6370449449375196351599153015574381770035613543018459128649099880800931516555;
   1;
   295783935389159915994291787123410157440430605678791870015813914854451878953;
   1885036029361295663523188097491373547747965376343743368061695416846459124220;
   10122186774293979421804044019076864404826057494146066503060381627383410127580;
   12697894017979352837304191040169993239209678471665790025784414078709472466641;
   10634048668007877874152214337297294256107110009147991065682648252366779110842;
   4;
   3707783050626500352373920809087063701580095907450896988548380669957941190386;
   2;
   9342060737333956362848966054825841459698201848402024960264333374214786054093;
   0;
   16072333194374420004304348240144418465532046245113983518796776484395094227296;
   8922191238110805678738043907156051776257765381026667140447308306836506524041;
   3;
   15270118870002402008683821372775754627564064507495278312531507363520501911705;
   8992090085825164609649680399088032147924445920746554727950780750184503087872;
   324086353872343165529390008141812191088165141644305392236014943859280067680;
   1;
   948845398036427710114046750929303304171941861471721200507725226731694937449;
   0;
   8472025463523039567908996325648808162711028994388181147634625294770310788365;
   6238638722660388691022007922617374908081209348698078044578946528044984989162;
   2;
   1753030717011820679493339652221918354421381236471740942415710095668759892291;
   4;
   1090123199510139435842327885741907062535732627298435870022086088155223294748;
   2628385595918455463285295470224011709512873907758843066804759716585013610107;
   4;
   9653531216590600560091693336133159435508829233182872330021742438820211613563;
   4;
   6495815798820010209207238664408019864167263512764908532960319032519763054015;
   4;
   1687747432379797504364346035852975478250871851090692678507780497982428330118;
   6643593045185121314966970139162695863724024908462209688649080852457751945365;
   1099027998341802757318033567914726835735766958401352378251743013791773411812;
   5854870007032810033707394160163568745631374364123983189280731424553161668632;
   4570866946010018307621765934428290994130945178821080615144169818859407496841;
   17601426960058780788712856930623438694198155948496274801267471771305794074301;
   7083202528905209338794443007060499446899234360206786222876054320371094646352;
   12876927134168781919366439439226375520374414570583023536487855932853387213513;
   1639416402963927876295053763773212796706483572427207491266747246831632363305;
   7470436491261054602038458200174803474645553009995153806698243919201538516912;
   17623113927196296681095970778289522999120228397787397042536328382945704670980;
   8579525051175942544718110639834535710230773909018991496116168841149556672206;
   12750688643200279003651390436437573088151538624431042518111291007176974745077;
   220784912981964789995033619441442546004879866897287099320788399616497361971;
   10220012961094680121987648387044035287227223068179093708156871075142174460431;
   354318896238272216455242856845683165471820710471088851567804600541309509758;
   6316768683457507912676690880585130900025173312338440579964298600075876136830;
   12099287893855004263525009319077100562898075061006840818842561401608971229469;
   9149320360905327724335802270924283391419134871757527166097677048970074438845;
   12496125757444052830811000547021256057846972820088471214927486541745003637218;
   4157200984456926373535579414689656698798672501943553718407669566889822894299;
   302118181820552762486179386230693453548626038654334987489069708236673641224;
   2226242700288481379244911897867897101392468675788817677671283864278140164345;
   9452173526425369216443288213885500019658315802205831679709703375480763799375;
   16330860983872548358193169427176553307507149794083929315771247339253366970070;
   2438114671409188901193795093363259568578321848166152110167214878672592328;
   21527008672642903289743220498894478881213642874791786793552083208481709240527].
Definition o2 : list Z :=
  [13095641450880082702323958709525570451056266621498438190822578863590953939067;
   4473991060955928333111563333108961039252925981943362203224819524212439755754;
   10123543074579551831803909146243722199968028140026438018915068113820814827123;
   19405307317650425013893350983290239614455336264010830251052355590075870690529;
   9077182774548292198136801865547842630635875069982896047175174827305609173073;
   9459372949150549053322982346513530573639837127765889673711497915152833809882;
   15856150346191084242578061712639235768282924625453093780775375483035162075760;
   10715088804006081330507892807344798996710452877829360608779004419038827658255;
   1397866317695102026373408332833405195499634246606466627842613664266062911218;
   9697305631561034495842143318130338704998787257458571976723785883928725526566;
   1187998084899741205101071280367995800710893077477508260251801235730479900967;
   12387481452209456247755536326165495163986699585816454655949415166374151809057;
   8766642884428418769535388374180405489788891333429744203982746420072757826715;
   5781339452011526224513753463389785818535118342753149476892652620205022817968;
   8228971198587304493265125598443722211319730082594733678772409920945724348072;
   2692394874697917919248557999807117168064929532324240656336997027492903057419;
   15725234612555714453202217308271149452782003649096406255374647081003068682896;
   16750026655819456605879421899419804868126885658549681228619679725092586539580;
   15825672054366909267078687731075227897551087100283120357905290609245397754281;
   17815960893006264679511861653317133651889916223160817182050103037957274200391;
   13340821612632773477517765956237311382993259852308974251839125958294703521138;
   15595598999931506402361770993321836659179692981519815575943678448201745703461;
   18805473891592472415799382750681864126239848391470913783736324216334029073211;
   21364740295425267190130742769517356662480835705153045000896371235698729058062;
   12948206962950057913885267854343016580585089003900001115250612002214006457615;
   19990943897880598056525362268739584337328369587290038602814154606703979198904;
   9519978478729461551102761827861328174926195201134718231820554388457551132596;
   3475807321640472078924369957443831908278133553548688980112045617103577708755;
   12132446084933183077032971578727560038261879289837211761091964756956795772611;
   578366032779259042018121097148962722553910173168874776183894563240768216170;
   6940772409230796318050813781840976076236026028091739373206981654231999173820;
   4018395236946267280281226160939169895590424848383616491864479347910844779417;
   502032336371044193930492242232403132594512465492887662195605310434046078273;
   7423839576971493657226871765006121149162664656854723608377190949168838501316;
   800849579750435297283511012211927677052273638734566965642917296194924317745;
   7695706465888524809919486015603223519450966161269641108521181473142821876178;
   13980666453944778763527543965226013407505609088087049739444885627347699295329;
   7554380070394346208157136891652402364118637730940758053365937577384307203118;
   6696047233037466137906435336312634811642533119129386114377693163941713830774;
   1367983808167448253226167582070618724529335969050017953223198601166306572071;
   8858491843278867082497149082462793183935091915650088040280987695933347407967;
   6560603970896286728961122187248429890540733422650818177227416079581930389979;
   4810128842777779277305451513817165994864714901990904135995914219706903608044;
   13144178841602389725051651274481471436310320774787551986243280915769084367253;
   12420403635042348330206291547267921640149595155374674182922056020461317724938;
   16256645751873839173277798471534862690484771335395452804108580406592164091887;
   14299961440333008598036705453484719304599573005756950920554191094887939121941;
   631958162965539971888515316263748743752224113092901377182494181588726150696;
   12944848831660860445466434023285008679000468543320882959208616367101720768;
   1326052238551254941228576754890318035470309044891441581820833577490791225512;
   15671090361406245863208353515694118520148734556978649272483672351073242939776;
   4731233757957893603482555569354890193259230586477161044836463319786876632540;
   14052432876866528786848549807087134121816828778125131472241115160950960862596;
   3798264087083793488742355316835821514849957795040583086516228194375343475958;
   49053245090990374367974429724416232014769699703570745017671116390389394780;
   17608444668798438062988623587940734046500980628110631734459905881683227904706;
   21267666204219008142141603334560048258363077696875760699439596373592112539970;
   446905225368905160069306140563706721524848548382196675997929854470672074353;
   3230891495801044015487644977317776865651536338873799378483219165376311267350;
   7246193991311664444491160761599010187957777118473089690772704900166055888348;
   2347032237012488596763555245554488288560796067933781643712205189715111690111;
   7630171961891477169349641715293169576830363138205276043927241821567910532979;
   104949656089354636145937166111405830937575754003777922350980349219086859700;
   3398796230342456674391999711471470236429786032934319146856842963015542793409;
   2523296166359129309387502919389617552256549174867214975881190757635405195113;
   1450773733250361805555718033912723288752314616692035624859085463653602551161;
   7464299951698669245201491238522990744847438223809107930451818066813746483215;
   2325999515625107167770641711053695697447885446513099210275833005709564111472;
   11508833263093469495702698318270117963862440655470247937570024814865900936479;
   3630125064765719570133749065251545043688921830229452126760415375815445926924;
   12687278698989923782894100635435362052314210095204653579112643242933968798649;
   1543850747262006973437997611939494781723369414914533066055930923983867017287;
   11219303915883342348757841133564787817632660113384747358209687623242340882837;
   16623756559994442009082102460051545729808548433512633025434661812462685212639;
   16105605317209273506291130184190253208728441030241325053998371792644983174017;
   2723916866518769206887364208755284597346024000474835043813964132240453927349;
   6425558691891679326280969862663692296879454377446474874207323751808773570382;
   12254937291621682407927614873553060871993824266543069398954510902813517994630;
   9643961041794470934957195580777439856225505637401025516423078036708725270559;
   1597679294376173962657615059284547389782705278035202876094426681864420220065;
   140831479493145091934868441901123104849937731429881252817996855379160498581;
   16745214579251342247127144612635053486567712873718680192653198743985902911906;
   6955977647283855449460395995774250462270662164350716941680717011766345226;
   45510635972618860351702768902889220821389001509391555115936188357198326798;
   6023652161773607019301191608365796768787073909499621927435854525559653296442;
   17139765300749720149706004046084447103212633322554875956600700889322830157699;
   5352519517922964918124977280513961609147899338100575062809495487762300963893;
   4680671770646702872743245523224023675951099755075857114405539388501013223365;
   3079799465036392396713893274325841402696660503392187148159296320119199611733;
   2547158044152959648427798879046734303075623926324350744159248469984616280250;
   2637824736835625647438264469636198640812408504443699800695714450371414977218;
   717200309030589680923046829092529016639538946969713000463472871129375789997;
   1731270016784982061593648014883459226638115648884508634902669042621685395781;
   916013059235746848360136273255747188871468653366683726682680298109257314598;
   4153427483561366286389495119678640112957860485760696204862691863730739309269;
   666862905172631834927497851991359674415536642279885349364416407828592480752;
   12774203787961915086687930642265835395144170609556942256779723274529417176357;
   782851156243705591928331331010083944609398733577018025908546014877345944197;
   8592054129445611315995062103555597528899700569055417244713095496865869960234;
   243675866218042045499508703654409585193038225423609745068362254366311526431;
   5831955598211690902695486377708692856583606362273934699501602287816993148406;
   10378867718465760027728693581947517643165221991311748549459306641386742919045;
   242267363337315431308209619326833337043817292049084453315753618018602864215;
   16591470969683563982357340783121641085953672915861996281175579435505360337627;
   6625023154593689736355257005683599731382476780725161340395046776389385869689;
   11440343949573171098395230070810537292447536462211502239286897495405288402110;
   10745882697413905302321310997090873221349971076270755951653005133165997511262;
   3854625720738776424168089852410113315010667671403904076339729768309906223368;
   12943197184145520862194003347928215150045141225653403069652011940879433195850;
   5142175310207454034455618778131782924045451877892775400112030669935181553131;
   5404275502681475114378709954817374428802506268793517526928268514127518860613;
   1253725699201221885120257919676543132800625829145736481804135852339800922778;
   17106872730396742770779360526864048133391159957859548004447180543259599435006;
   284966547855381178482578982822912831255939842824165205660280137133678324950;
   20060114872533376243259861757777625494984441162171862658874800638871142593247;
   6929504321283474719195015870033610280772512130906431644016206120182132380664;
   47348899953818870265121587211635948055249614662291121119789843860998664;
   14624220693358682169512393036322760749080312391765792762432831930140101799549;
   544351672028723752199941501966917921035961506096699537527511049503903204755;
   16482924534401818531267933671915273668212385602209424928344845310797506154445;
   12761429979942280228016630011016795508925910775094790165440120894779287196637;
   20788820375142382517184932305719167565784824559849292387986369439996615439839;
   14800656662623483565104407990176509838648161096804513875248278371387749151437;
   11105967801176167007599040246747504109560303064398548751479122097173727117017;
   12159860850355259454341129002442003192054565502965828196085096645084366507900;
   18693821741340402936549852826584487429182082420752445383635487602495076022312;
   13921804934823979179871616199888566641143791889303941191646713705864346075886;
   1748407915514194732502937645605375181398676173762404938095512711705451740426;
   19622284694283789164074250866944213468133447995736677610229393255574455364154;
   15006296549640720068535954804762209151797872250442951731672438726604095403776;
   7566107261229748170625775084293465568165618279974223039440186222520378033548;
   6379071325672269853228652207277961238977005671611332154601486931779636395596;
   1965856176491103369181848397497617251578006707950981875740827443097587528538;
   7822684419473595360222745470394185428799600568179852261972719113695584140927;
   21772447785021270011904364715698350537620360756446140507391190507800249409335;
   3079425775434416173758531930925820513269601367213245952238773256328130202497;
   8253342150562712067338796612487234589655112977344214487282537745699438437548;
   2199208631426758328997000834393270302971977384470977409935223179941747196598;
   7534064342502669372902341720798688275816350537705245297162156810641079782706;
   20645067161485281023288236631145898551766994307862499298490229509381158359861;
   773414421468318010525218004556325452307688204249817916410076780648076460169;
   8168837951542078598691572774292009445259006971818822378604821186608159131427;
   12758082766842011076954915513649493462278488495871605685939098060908844421909;
   2607120089294132064574023839806329259850369981120837541869702782598666905119;
   12910799725490591770992204971924702017847499158797798416174853277294905743868;
   955191461106550230612887927232091453289575427271955519418244039380069474793;
   1526891755771051943096090755324421952844488747003258701863656003818983472499;
   8432355648543034897906341195382242554846363780474046830632450310483792949690;
   2642270755690329992245249804569362809561710831455125476527264655552011573833;
   14885673192170145515157740947497066663530029836482488632925190967390529502837;
   6856556165154192005927589704842717762606718169513850015284031788946797253485;
   13827371873193930955482147088403451684445156811984062393211842063094759172788;
   12278606778178146620425776911658109374082015758328604549755523923347835724627;
   14358209770040204599959694787204783993265723342111149970466424654195477521236;
   14245865226375833470639706789455238109660152370410703245470183723543614656392;
   378333951387800624008298470960715936614319875111006168498050108913306881269;
   16461359905352512842160302517878998904748030875213545164805291811733887714922;
   5484805141561306591235733238144600061917306567748251348687292662314701677485;
   9466885829904126368885879891632293002675619569433221486252079001227255639129;
   11629401465724832858605300015675000260464964683102385821044272477775783603884;
   2709745737173432084373504324853112723728230752345064395105990907742932388921;
   11636020156715210182892042743226580824969482696080910088228515452854866671115;
   14621782216204309496465770809971021702015691209242147541987211669487217184954;
   21888242871839275222246405745257275088548364400416034343698204186575808495615].
Definition o3 : list Z :=
  [13095641450880082702323958709525570451056266621498438190822578863590953939067;
   7654396304655345832025464890318286803384495222975506338784351071845408689681;
   8397690024896477927986849151182663209988313333599691274770163663264816456959;
   7024487053700139992911453026325475549411244800908508433581975794765092197760;
   7789774058233626934851899870355405714591180161723312684354041754354692216814;
   3703333717071411837388165801516079815725520022379957591240258150478538604779;
   15045434234789702376006574993046609457790581372937765807843108749605929406536;
   3167189255572133145296214308047934271630466596304411194818784160335157308218;
   14082900348018410479865539235662130815261823515898243765501093762850650647276;
   14267679149858273075835141008442737562914141609108808066250735359646641131948;
   18622828227178962660153913291375434161024501615949709160089867845446017942552;
   14974749383024514635424766173020957891211109592661605025912932982256388979686;
   20840819265200863970076422097303055200916696385635669710408880332606420927632;
   1560415246809831433953963306940865860480759106666349117922751224892119134136;
   3437257835641405319074125356738053203504677029772730498140317136772685231;
   7906541755693808730224019554165122846537634188796155380267150782203406406167;
   16085075228027743258746078812800737368293531078482236517228059392427938315960;
   2471691639428688597919490426625983301212262441087780137802152599099715286258;
   2338598885518764952517120343685213865696530946325271912376147256916590708372;
   198625080912660214225063610166510225880084406825286299083216750158741940478;
   5108258336382735587748566625725346717822704467441279364118697266437859324020;
   18244079515858398218504653583596355579851556567929314368623419077070771693;
   106798907951774881110739271976902645211948373167506281133453876251834799837;
   1585250559768934749568582802254116445415218031887001522887594380765740822307;
   138649320398176970329297094329010490897090979469695462741143194532226532090;
   571397663348062860210273837321586837872220452324384435921932801878651745563;
   4793883074785780552925951378487021512999294071963664281767653102673375737296;
   3681116189738311067720174344693854244641874067697435681194467550720329321786;
   2056404680761318937158302965100448917383688061385992875921260485328052303695;
   20592846454229674874561234627800451837977349988964914324199017075916066327415;
   14576619041922482240663051225488904585252933295376829413519069048696799448130;
   9126386531722028931592119586813576665783759959703915900427029430474137436829;
   737398517733015114762125460468007618682753507381039636725689764050711844254;
   627549970122414019159687016860721104835764203185600717913550886528158811359;
   6587164013914610795499410250012819427586881139697930853067972876636581467838;
   11069709822637576374957634399346364877236908732584593164638264577658593673951;
   13561468769919033709970226869143043221656800358792416033834472189382372108319;
   17505569033447158622377187298718352211198758971139579256794413581091519044588;
   12119983057643894840170657450985432796218602091264306003831970039660830372470;
   17375234749318001190580362512366582539540086776268444708842676807397167768921;
   2927325433658588648867001275069802450537343059761898047867600051520305566525;
   4982506673810701569842557551902661131685620667672506466804455899621319729225;
   4260315610148013431277007366923223085185162651091089877451461461967921088217;
   548366694221134579714486560769969901997391378567478328046203521645919750625;
   6181383857315906514341288880888294052843599778441015299016500839082215945372;
   13286291300243561208931823421248573315540667586648274755276360224214400258093;
   1142630661595211211293548814438680334170428832752532910715381424680882840308;
   16540531729636891134085955755550179274660889663395324676347254627458316562317;
   13935012305514218300811027457066694602927002884197345639172134007647899160536;
   10981393782030644282065320595467158528878735671055611840362631736060457074359;
   2709629200497039948807881537742903308639705183854615335481922023981565773956;
   3431654030133167102396279319450386696664219536736232859052880476657633338727;
   12830570626404957877815980992823609256018380458910355788473946274532639969752;
   10915732115932571765288069879116925821819621079467714983690640247581759690233;
   497645535442625806387399512923398955248065984835710080983240783215121508271;
   13731569640192262032819743060880350291866717102009128167436144149021745604903;
   15904847722116309900735424740497537980462342353519529370466431103334270056986;
   8123875845846481638610236868509319171055419125122229518417039299631534964875;
   857057818789363390864188477975183976811002862684169500715986153582119114545;
   7456715252627279249843247494417788672654872238205718557967181080041081212895;
   13686855752966708367128382517543379815853835965639500338569325643892024028806;
   9168918082387829014815769891207774459425173228564133863286800090496854960570;
   358000177062983672906583780208995428717809625473236913943907600603051726143;
   15202970333906274242647262365867704728352985548288551221700137622289652378988;
   3736285650675966257873141829041180017656110160764860611158371237543952952967;
   11120129741853632407058369439154335519100535984446510212208140887541596336371;
   6841962004105375349756610939760430632897171973374464590990965456712441347;
   13180494376500391670336427497933411435823455325481196065153768589213825442726;
   4982917298049454515088834206127086092354652004034893221757926445630944320782;
   119387988833127682809453475840762078153223856316076198237131961519783867365;
   358234560946793521649805911022244564480061413746134779640196736505723505368;
   494594719757131979469646983665885306099949926824411826855221233021517589442;
   20380623631766104271382856577656101479123360997077439438814699557979757457483;
   874425663690830050720009964116038215278281936348284801987634710558709234769;
   219388381164033870564573189124840936086602845259535759829552695855641755799;
   5045797326337642996137597562832928908906652930532740683744077889562356009522;
   2962634056713100854460869735641204625838246238735951295942879250942691563874;
   13040927616275650015746058618957933997151256811544494594379663891294624603317;
   492065217390470465043082104582087476933967279514921955329311306181767174051;
   5805887950722055649659693759466005837777461458208934516544269622917696043555;
   1443504672453722475045577982475741154334802719170297758576281256148891031520;
   8033323222777340408089277666486720517701961019552216895214828193548622054726;
   4592575783523755825497571050076907614911045326564996600826861731661724432601;
   10486033684673505937052736955005991537905166565600130205971046328476132052312;
   12633274477373624847004230934991485651823603719667802851097906026548168414592;
   1836032094890937694053360481491623701910409582525372640547033837843854604789;
   4831202872445984478435689598808701434073601377900272884293442806925652360129;
   241201909539903377115956324831411486192972772914154471069941227677801745640;
   5107484694022684738032840500019683749647682383220259956662793368141128215190;
   5475908046550246498702849586594735721406093770755076235650682045179898046233;
   18566205114491061648274829622478247245162885233754403450221732646000396324034;
   557478676296596567621004451796840606312156394738368575751674347976287550098;
   15618965336354458416607380796630121347641386361292881623282417362762113572851;
   7868129979369909097167970852085823675331126380134912583412013265864392418450;
   13095641450880082702323958709525570451056266621498438190822578863590953939067;
   4473991060955928333111563333108961039252925981943362203224819524212439755754;
   10123543074579551831803909146243722199968028140026438018915068113820814827123;
   19405307317650425013893350983290239614455336264010830251052355590075870690529;
   9077182774548292198136801865547842630635875069982896047175174827305609173073;
   9459372949150549053322982346513530573639837127765889673711497915152833809882;
   15856150346191084242578061712639235768282924625453093780775375483035162075760;
   10715088804006081330507892807344798996710452877829360608779004419038827658255;
   1397866317695102026373408332833405195499634246606466627842613664266062911218;
   9697305631561034495842143318130338704998787257458571976723785883928725526566;
   1187998084899741205101071280367995800710893077477508260251801235730479900967;
   12387481452209456247755536326165495163986699585816454655949415166374151809057;
   8766642884428418769535388374180405489788891333429744203982746420072757826715;
   5781339452011526224513753463389785818535118342753149476892652620205022817968;
   8228971198587304493265125598443722211319730082594733678772409920945724348072;
   2692394874697917919248557999807117168064929532324240656336997027492903057419;
   15725234612555714453202217308271149452782003649096406255374647081003068682896;
   16750026655819456605879421899419804868126885658549681228619679725092586539580;
   15825672054366909267078687731075227897551087100283120357905290609245397754281;
   17815960893006264679511861653317133651889916223160817182050103037957274200391;
   13340821612632773477517765956237311382993259852308974251839125958294703521138;
   15595598999931506402361770993321836659179692981519815575943678448201745703461;
   18805473891592472415799382750681864126239848391470913783736324216334029073211;
   21364740295425267190130742769517356662480835705153045000896371235698729058062;
   12948206962950057913885267854343016580585089003900001115250612002214006457615;
   19990943897880598056525362268739584337328369587290038602814154606703979198904;
   9519978478729461551102761827861328174926195201134718231820554388457551132596;
   3475807321640472078924369957443831908278133553548688980112045617103577708755;
   12132446084933183077032971578727560038261879289837211761091964756956795772611;
   578366032779259042018121097148962722553910173168874776183894563240768216170;
   6940772409230796318050813781840976076236026028091739373206981654231999173820;
   4018395236946267280281226160939169895590424848383616491864479347910844779417;
   502032336371044193930492242232403132594512465492887662195605310434046078273;
   7423839576971493657226871765006121149162664656854723608377190949168838501316;
   800849579750435297283511012211927677052273638734566965642917296194924317745;
   7695706465888524809919486015603223519450966161269641108521181473142821876178;
   13980666453944778763527543965226013407505609088087049739444885627347699295329;
   7554380070394346208157136891652402364118637730940758053365937577384307203118;
   6696047233037466137906435336312634811642533119129386114377693163941713830774;
   1367983808167448253226167582070618724529335969050017953223198601166306572071;
   8858491843278867082497149082462793183935091915650088040280987695933347407967;
   6560603970896286728961122187248429890540733422650818177227416079581930389979;
   4810128842777779277305451513817165994864714901990904135995914219706903608044;
   13144178841602389725051651274481471436310320774787551986243280915769084367253;
   12420403635042348330206291547267921640149595155374674182922056020461317724938;
   16256645751873839173277798471534862690484771335395452804108580406592164091887;
   14299961440333008598036705453484719304599573005756950920554191094887939121941;
   631958162965539971888515316263748743752224113092901377182494181588726150696;
   12944848831660860445466434023285008679000468543320882959208616367101720768;
   1326052238551254941228576754890318035470309044891441581820833577490791225512;
   15671090361406245863208353515694118520148734556978649272483672351073242939776;
   4731233757957893603482555569354890193259230586477161044836463319786876632540;
   14052432876866528786848549807087134121816828778125131472241115160950960862596;
   3798264087083793488742355316835821514849957795040583086516228194375343475958;
   49053245090990374367974429724416232014769699703570745017671116390389394780;
   17608444668798438062988623587940734046500980628110631734459905881683227904706;
   21267666204219008142141603334560048258363077696875760699439596373592112539970;
   446905225368905160069306140563706721524848548382196675997929854470672074353;
   3230891495801044015487644977317776865651536338873799378483219165376311267350;
   7246193991311664444491160761599010187957777118473089690772704900166055888348;
   2347032237012488596763555245554488288560796067933781643712205189715111690111;
   7630171961891477169349641715293169576830363138205276043927241821567910532979;
   104949656089354636145937166111405830937575754003777922350980349219086859700;
   3398796230342456674391999711471470236429786032934319146856842963015542793409;
   2523296166359129309387502919389617552256549174867214975881190757635405195113;
   1450773733250361805555718033912723288752314616692035624859085463653602551161;
   7464299951698669245201491238522990744847438223809107930451818066813746483215;
   2325999515625107167770641711053695697447885446513099210275833005709564111472;
   11508833263093469495702698318270117963862440655470247937570024814865900936479;
   3630125064765719570133749065251545043688921830229452126760415375815445926924;
   12687278698989923782894100635435362052314210095204653579112643242933968798649;
   1543850747262006973437997611939494781723369414914533066055930923983867017287;
   11219303915883342348757841133564787817632660113384747358209687623242340882837;
   16623756559994442009082102460051545729808548433512633025434661812462685212639;
   16105605317209273506291130184190253208728441030241325053998371792644983174017;
   2723916866518769206887364208755284597346024000474835043813964132240453927349;
   6425558691891679326280969862663692296879454377446474874207323751808773570382;
   12254937291621682407927614873553060871993824266543069398954510902813517994630;
   9643961041794470934957195580777439856225505637401025516423078036708725270559;
   1597679294376173962657615059284547389782705278035202876094426681864420220065;
   140831479493145091934868441901123104849937731429881252817996855379160498581;
   16745214579251342247127144612635053486567712873718680192653198743985902911906;
   6955977647283855449460395995774250462270662164350716941680717011766345226;
   45510635972618860351702768902889220821389001509391555115936188357198326798;
   6023652161773607019301191608365796768787073909499621927435854525559653296442;
   17139765300749720149706004046084447103212633322554875956600700889322830157699;
   5352519517922964918124977280513961609147899338100575062809495487762300963893;
   4680671770646702872743245523224023675951099755075857114405539388501013223365;
   3079799465036392396713893274325841402696660503392187148159296320119199611733;
   2547158044152959648427798879046734303075623926324350744159248469984616280250;
   2637824736835625647438264469636198640812408504443699800695714450371414977218;
   717200309030589680923046829092529016639538946969713000463472871129375789997;
   1731270016784982061593648014883459226638115648884508634902669042621685395781;
   916013059235746848360136273255747188871468653366683726682680298109257314598;
   4153427483561366286389495119678640112957860485760696204862691863730739309269;
   666862905172631834927497851991359674415536642279885349364416407828592480752;
   12774203787961915086687930642265835395144170609556942256779723274529417176357;
   782851156243705591928331331010083944609398733577018025908546014877345944197;
   8592054129445611315995062103555597528899700569055417244713095496865869960234;
   243675866218042045499508703654409585193038225423609745068362254366311526431;
   5831955598211690902695486377708692856583606362273934699501602287816993148406;
   10378867718465760027728693581947517643165221991311748549459306641386742919045;
   242267363337315431308209619326833337043817292049084453315753618018602864215;
   16591470969683563982357340783121641085953672915861996281175579435505360337627;
   6625023154593689736355257005683599731382476780725161340395046776389385869689;
   11440343949573171098395230070810537292447536462211502239286897495405288402110;
   10745882697413905302321310997090873221349971076270755951653005133165997511262;
   3854625720738776424168089852410113315010667671403904076339729768309906223368;
   12943197184145520862194003347928215150045141225653403069652011940879433195850;
   5142175310207454034455618778131782924045451877892775400112030669935181553131;
   5404275502681475114378709954817374428802506268793517526928268514127518860613;
   1253725699201221885120257919676543132800625829145736481804135852339800922778;
   17106872730396742770779360526864048133391159957859548004447180543259599435006;
   284966547855381178482578982822912831255939842824165205660280137133678324950;
   20060114872533376243259861757777625494984441162171862658874800638871142593247;
   6929504321283474719195015870033610280772512130906431644016206120182132380664;
   47348899953818870265121587211635948055249614662291121119789843860998664;
   14624220693358682169512393036322760749080312391765792762432831930140101799549;
   544351672028723752199941501966917921035961506096699537527511049503903204755;
   16482924534401818531267933671915273668212385602209424928344845310797506154445;
   12761429979942280228016630011016795508925910775094790165440120894779287196637;
   20788820375142382517184932305719167565784824559849292387986369439996615439839;
   14800656662623483565104407990176509838648161096804513875248278371387749151437;
   11105967801176167007599040246747504109560303064398548751479122097173727117017;
   12159860850355259454341129002442003192054565502965828196085096645084366507900;
   18693821741340402936549852826584487429182082420752445383635487602495076022312;
   13921804934823979179871616199888566641143791889303941191646713705864346075886;
   1748407915514194732502937645605375181398676173762404938095512711705451740426;
   19622284694283789164074250866944213468133447995736677610229393255574455364154;
   15006296549640720068535954804762209151797872250442951731672438726604095403776;
   7566107261229748170625775084293465568165618279974223039440186222520378033548;
   6379071325672269853228652207277961238977005671611332154601486931779636395596;
   1965856176491103369181848397497617251578006707950981875740827443097587528538;
   7822684419473595360222745470394185428799600568179852261972719113695584140927;
   21772447785021270011904364715698350537620360756446140507391190507800249409335;
   3079425775434416173758531930925820513269601367213245952238773256328130202497;
   8253342150562712067338796612487234589655112977344214487282537745699438437548;
   2199208631426758328997000834393270302971977384470977409935223179941747196598;
   7534064342502669372902341720798688275816350537705245297162156810641079782706;
   20645067161485281023288236631145898551766994307862499298490229509381158359861;
   773414421468318010525218004556325452307688204249817916410076780648076460169;
   8168837951542078598691572774292009445259006971818822378604821186608159131427;
   12758082766842011076954915513649493462278488495871605685939098060908844421909;
   2607120089294132064574023839806329259850369981120837541869702782598666905119;
   12910799725490591770992204971924702017847499158797798416174853277294905743868;
   955191461106550230612887927232091453289575427271955519418244039380069474793;
   1526891755771051943096090755324421952844488747003258701863656003818983472499;
   8432355648543034897906341195382242554846363780474046830632450310483792949690;
   2642270755690329992245249804569362809561710831455125476527264655552011573833;
   14885673192170145515157740947497066663530029836482488632925190967390529502837;
   6856556165154192005927589704842717762606718169513850015284031788946797253485;
   13827371873193930955482147088403451684445156811984062393211842063094759172788;
   12278606778178146620425776911658109374082015758328604549755523923347835724627;
   14358209770040204599959694787204783993265723342111149970466424654195477521236;
   14245865226375833470639706789455238109660152370410703245470183723543614656392;
   378333951387800624008298470960715936614319875111006168498050108913306881269;
   16461359905352512842160302517878998904748030875213545164805291811733887714922;
   5484805141561306591235733238144600061917306567748251348687292662314701677485;
   9466885829904126368885879891632293002675619569433221486252079001227255639129;
   11629401465724832858605300015675000260464964683102385821044272477775783603884;
   2709745737173432084373504324853112723728230752345064395105990907742932388921;
   11636020156715210182892042743226580824969482696080910088228515452854866671115;
   14621782216204309496465770809971021702015691209242147541987211669487217184954;
   13095641450880082702323958709525570451056266621498438190822578863590953939067;
   7654396304655345832025464890318286803384495222975506338784351071845408689681;
   8397690024896477927986849151182663209988313333599691274770163663264816456959;
   7024487053700139992911453026325475549411244800908508433581975794765092197760;
   7789774058233626934851899870355405714591180161723312684354041754354692216814;
   3703333717071411837388165801516079815725520022379957591240258150478538604779;
   17285529094733217663432006623259384330501565886225279694471209740189741713306;
   15071063777833997173718509812091516463560260704318593738639592227329020998197;
   1603100345767678704623478701943887599493941842727712316784374167282630396613;
   1961545479630382698741550361461802296366836426471563597439949928991182530186;
   20497381935141219738966748810266035931089894570379436665813552848510830325191;
   1304816600346849259457274078170582251598786918549660713016346518735470022433;
   14752144032420398390970869952247636618871612552372884350887926140188432018452;
   4201611004206048624825242189455537155809035794811429086521673347544132540213;
   2852438460194351275136674530678120167382092496065291542967281422645608816040;
   7948105213033541146303638303463156095925559327748392926143152463768420769207;
   4909074713954123600880391473911014485319638098058336192421829601420504947875;
   5090830241591766174895323901926647831805532763664615860140612107426998548480;
   7620364507020615812112772479000356953301839259385128430856861575765008537726;
   15113099202583616537684784830929827586594183379734671455387346534297904200307;
   18178399673777833994486284623650956890192035658183415482586448027355343145489;
   328499342767089915915085153687228655866268278035718848301562849858249837023;
   1714004951176131052205942725678102156583741546331152582588674331667984788833;
   553720020051102660940445991392220398949371556715879879069899979827956473041;
   15290253784883122696110592980278548043965585876950221649622194428477689561030;
   15184098177001944601290662288367979510739475514214237197568160703040300038214;
   2571417698348137875471241070450106393903531324447390332104964267544270782313;
   5547592209821398720335545099455430653504310426601058716286697506151217733332;
   284014976127924306620496402875809444277814026306129425815388489393128900791;
   2342293171130659763629886277070731493192269197576720135355873121483586837927;
   12492827497160971729345943035286775677215721647854328213257976615976883709881;
   2301653638321906118566185246605921961318212590645934102958944773159721742335;
   8635114078205669769742820239184224476628828609471697663544113079604750907698;
   5220788736012296957497577098550977225817747602073559775272596598249387087486;
   17450879176791726121499814196557892994976139270801946647821934748812500351291;
   7765303197109570083917146361908150814954811922187595282012357093142396483874;
   4520328198716552895076827170068427437152907303844105253457319848607732121853;
   12914618150220699409042422779208151539844661032740600066291977030129905557870;
   10695537492431430978592475711996436993841316692647961329697686506067482810504;
   21596153410212835602058850956904986395938194671915189755941485774167000782172;
   12423060967779047634655447238604995654624300237974158412945679012961430881835;
   17860390973905103278765701350085942546564240327789801967149184118951338254675;
   5707048069519968725330949132907539942119480872190612951524246223548514852901;
   14538775481227357972853788829809802339443227294069393506331490964566251312506;
   12140961733790236453752648790570881413865000675175512238983277740938173332123;
   623109840987507193469086264735755902540635181059687092596621327300820644032;
   160853376104730273133390587617575724950318014316117754056956046234878133825;
   11003582975362271854683953379986720933882479184010356713367245843753023844152;
   15079938514326106107305172374277151264127338580385887351798276448322279843905;
   12655104019520684444386346103965810453330264950251735649856992265131499607638;
   1285263336149701564410825630178830298184470957047574851783180824344737970687;
   14453506800182562588362524001938437758739615155140425540285858772494681661203;
   13392147172910838206794134905140385787965586550994368375361982439980999276682;
   864285516113053112906460761117371890329983893872598128195397375074849175962;
   10098802430129864916595307977061991125613480432721218094372400950041118647198;
   15451792676565692893029839510443311537145683247982677364273592806685745428731;
   236264495811364300581703120797001707196279119316128555230559023710636543895;
   14624966864595101154959790690487618737049436667550976737891991216564698938238;
   18751568970027243163746674775199300315951396805946876655754401223014290518475;
   5070088695699194971101103544826243510346772372733997486971441182273570497084;
   6560724499987542326161117591385907670846791588797222551713436246637400248982;
   13050554849469173736471043586377950068103334701899230285933103036925214238551;
   13529453218987009376362882009918103930444161273275772621688074143190937899654;
   1284844912741645045363430041969574592718299921416366239886784597254967557167;
   9105018342700481016585001566939727424755026899202362842926392672304914190744;
   7210694303004144631639622714479494602958186248590154257834207400432519740333;
   16112322982887436199432541717180708238228807737595428111356691319388421780181;
   589337351801422279684256678035440819144307364244995703050701159486851522566;
   16469794149185287910276903347456673554927753388858121607289921715495430194057;
   4622158779334114439365883821499847846804761608216169556531377229474589920827;
   168718373586890073263537555829758461909401252224318692031353643337614424561;
   3884134173118271720012511467684866519339927740198502667951414511516104167900;
   18314947848988688897319453307842467901162847559509634422752296544362896439566;
   10694966746817482262400154995759223076173321686372547401747875948845818199164;
   11857976637627308877578179692657525046810921294075477077015306953786119112719;
   20728068952629084905496111130844195954963068552341421084733117712036677239423;
   19179721132844554867110602585375529519391032914962325618404200241500941160923;
   8956479123567953468878565535120509165839940172144163357389284778566778489957;
   8629031773194853541264456647276424787093683374943848857105997135291718789028;
   7694910929434582744450479091751063175338283442975555755442422364691307800367;
   4445851204339488469604006849573258444592190553720704432482852212897410215038;
   6318133055513407794965529529865592141290550116239909864410819997755501393617;
   18227150822892863301687593806312218545733737206120941184456429475576040972835;
   5011492451053809060867853358010999368685073920424423253184425451669649142957;
   2126626961270088994324362008332347831808015940104783017986363670776856070416;
   8586521310272508369813078031418253874012014463506387361397940061068037915288;
   3389656211021842088602162034795456711089393023168418659106232959672563746687;
   1266464896776541771683010235994509545048378176568865048894706196122815387967;
   5476129387793659420164054904695957203592901113619683431710239326904286164900;
   2756484792342789102682642490420165698706386690586275752151375439082383163462;
   9461051185727247617157539886087006577998655459150170248132278735231319839395;
   539952546372944765953912726355938873568658848522358332919680032436196787820;
   2193557759455904509205742560828613846254140480386862690903252430076195766889;
   2399350162366129388231416493134346300917170907614218233091872585733455580227;
   9075712623155764027583235098458757956829316263390181701548072541145664021872;
   12540910715480831285002277500590865806066449857333876143591344791724825423408;
   15422281267338982698964147374184940452062998394407689357814854894184479859582;
   5689702912664647347357091813277237570574890417100249644065428642802907187381;
   4580577537048407989513203286016001986097704369520249030174682929700509097315;
   19962561888171949072748891370246310965798269927847938667936614722461286309534;
   156521786326305142064649928849635151034374574382820130139900457283640580;
   14731783436199579811796218425228362785616970440319070436232154381771183106734;
   662648039639633004805171991646752523866101408520412565235006210108506710541;
   15575257298764945450062381273211973694771203658098020826253760920076546720474;
   6080100835882091211831573774662205776378453027415525044731385080708221422328;
   670311941708641016373264993018155850077379410031823486300379792010072391224;
   9697546165549006411783474870789662208850706635413705058233996859695648642209;
   229134757086084416147987753080505645149086942280834220547367166427127359961;
   3979126126216339400943227310406280997152297661094808734348479060659551563811;
   9750290149400395239874092398046719406119302102525309594830177069288404207158;
   12732053601479884539375406689167214637336525864160769208880766921994018499336;
   3130563286052978508714014040307414476289871317257833578289511690826158829173;
   2668037494060914763956374534525004375045638494713382097071123435130487344548;
   13947792108401239804254329166677553633907392906591470187020163259726699270948;
   13650598624064117422993113337747300686982832307202711141665287783236764835778;
   5163465407447140999984373285738717852525521008952862180666771599447438131769;
   8049268674788365628017764602704475661349469078885710534030114836415382024231;
   3549238376986367272270259849439121638346704223790248515183534274080233220723;
   2935878379324098147848595666408685074193927701472815413162484781521116985669;
   5901105060349235280236491056411576541578002435996013648909566151431312426205;
   3754241223822021476530279113113809912849006539135621707539163743369632228035;
   590246445477561977721258892885882081597293547434137442100081130947532457619;
   6727006913521245960378834568694447212979098910793168442906522462369153475842;
   642386277632462328290124475615022831939965896245204630608149018992780494835;
   1999309997989444106003401892322484724129286890811279201442210388268539115783;
   2989239592361328469156840335739712624161910111301061551084466092993632435498;
   11869587907657795340438026007931879812014606417931031715022310907672889928274;
   2935499889978622545177278014015159030223945454933543876673185195945130492674;
   13095641450880082702323958709525570451056266621498438190822578863590953939067;
   7654396304655345832025464890318286803384495222975506338784351071845408689681;
   8397690024896477927986849151182663209988313333599691274770163663264816456959;
   3767926798597924826462723514106993153759948141042098723393652458664367772748;
   6670060669546082523252771723066859594636140426747394006777158175421511518814;
   204133620067869668140125298661095555415439800980555280615275116276362937590;
   17844263425807387413944177154089502890565233650999239557439512970191216539593;
   2066187962385618955984321764164019493509344074950590003651864008608363954594;
   12675920227195454300368141504446452575506948700032185054463899481958488014267;
   6890944722462765221732420211984082071153189444337393304872606718094658465088;
   19811209678173492443646044838816123870140995186606219456116842928410069244523;
   611215605591651453937869231581344514456935735695754122913084959075141835229;
   439163509772531043954304198650137296178187300090358634834286731834633434454;
   12432233466625073684539811989082675915554296230403684610239161387869743249982;
   19069293850495211295233206302335351990904230358051462653380633978292147382082;
   833910392081354819068061017608128574493107520103147440927572680252591772810;
   2883296935026866138599784862936422011401431914713352041214201494702571378000;
   11467350945380073989254145587136974761903795389494124177935014252761402521263;
   2456457880988148181655310067449301936153070282028394991445209540374381440797;
   15731073036547252746608312996259586579101735108669928060337500483257045196797;
   7157388484705939264403772436139885196109641514805578985169295017383469132167;
   1156171135911938502905041321151355860171335937826479481963172688357756696222;
   311955704034834617234434258338474234994506575128267733941187822123172141308;
   2651699561346848181182390829763239534223455513341951830552632348478802450836;
   10083558897387939195473602736456273862945127018320425070218866497955269858333;
   4892125075055363596932536420633477715568458877476091238474649413203808636566;
   482979672395792519734475462523202960033127071707667511252792357387946866421;
   3954694485344836403133971219001746526079023219787134780089331293240305489710;
   183915334727558504556702434430429188152692112808445686539047988646353215644;
   5790122526261158120112115532791595614740767435888695924435795698965787683892;
   1482928552451281447943703419047590771062652401574206890920422219523278170268;
   3664099579285585622903213675761058993061842728522912105150682803242700463656;
   15522606014582572137146445622891733577672943089589781173292691486440952542081;
   2391246233780254364257730434227655507314344766107820114959769775547985135752;
   7038090353190985052775651220342752456688570326479633231706313689607702833199;
   8333452794296958614485607864300479318595638297949434567906198939701495089813;
   490519383117829433824978465494429075903555219086316338298734054260404194332;
   16539257063830562667935441493695697796415428235306542893610233444293793794007;
   5028634530417508678463848364132561123589908411748596946708589279491437906893;
   708307726278965430045873447257163342016679355553138044698508478023679845213;
   5973642155769055799283355198106250959316567099631690159294424618522151270984;
   7219827930699606709932930688780112987326775946081850982431648714898739149174;
   10402772219071947986889835709172914239856224077712859997426411451728661221546;
   11277194894653717591915664901755221221237116865291275613786948805386171968226;
   19701546593698227375577467709841601951099858832717129196454065355003438979075;
   1963170502404858664455283746574927081081869712198960485330501140314599150170;
   12707944179672726796071281851586373805401485446708171267533251661568487524600;
   747082434319373479952429910106565061980805156949949138642955079216441475030;
   9200780477943948586908676141151409873535518073228769721999651232780422906013;
   2475736299144433795355183764807501603158984649482623335524724573222338361100;
   1339384819815777146920438242608488537115384400345709284990456181217695882678;
   4774703056464103511528138057268728907130220151402245912381481636621057775901;
   6515964477120107175023595410885150470936201953413079554153709588957666234331;
   13455700645559853400235895465842216762829899962250840532724388177326543709543;
   2483485626673754361373586763389069040700815936187881704336032358839486589449;
   2665361714931312207837104386996550629086314233654034498598756229768855007684;
   20143762665189231803179153898475408839358506267468740218706565181049882919102;
   741727167294998330989642743943070660940390019400642103559781641905941566939;
   13305759134002621844318174910226434061532240062072093983262578328280512776802;
   7571062752546559074639363868589730095221742108985693061101786057835574766627;
   2613129759378805014273608974855073275251158701143709682359901458369034505073;
   21310198466067411710644975629807947530122555988060975266557103461642338505529;
   14764108319706876976918767394756973003218439703225132103607572206563368819162;
   11356101555077848584484147446838886919880317059196093838529208837534706669736;
   19574132797501188610955497795108747045219399203420375570829208175558752506073;
   345085044921397531453030365012877056394128045374151281437446529246053064179;
   243797717140700002439354020747553309288222585661318297633825737375712144446;
   12711877380730555396456673531435675109667707751542625614601213045120036375429;
   10962144503860910719939411434901153694601345180679488173737774427379173807486;
   18843143751104589165825544504301787842502217668696521223443108225498530921911;
   10833776477135748954513632023613536241007957660998876768855727293561492682546;
   225411112364284102425865489427533812909700523165080915530106715509932578921;
   2137034247775915295704575251651720170236438071774282068781112894549751097201;
   74808453411086236932459031395842160005436106660257495504080629661829467693;
   21564852239203533299723035588893617999048547599908992021519128898514208724338;
   8772732847358403569590271407537900497978222982162640462155597394167578926817;
   3335469742005028023020352083561948429940499061501601048695576202227179459973;
   16577569874139086874858480347411859375027736351797673310681304317858897444938;
   6852632503693085352859368276690567680060369888341614790998004003496732866740;
   16636150066775258767943168455446568615398183346851061422281595049060318590410;
   1986151813567363309081743894630272291989505524491026364381764841237858964;
   5155606168388485108618347029290077857005577823265792667714115973898796460745;
   10339935009116454308780635406842800859450879183817039053173251855172084537222;
   1512129817395520996678220070249872575595801483673780261776554220871233109295;
   6257368834143390348154957939672354170050223821606190475282298507263977083045;
   8777375508728693327397287298778454350899208339271218392941368434587475005272;
   3794596599151512571253119152490012280121560533063256797443872091673331243082;
   18917808198713573509952007129864721974580373138710619226953713030948956132367;
   6415997830355198243969583248162764983733542009583182063579389300453277336264;
   2591770164470646742102410524068241310605970995717424227359879031047482423442;
   2266032178887612715589409085039272943422591050305783633090456925010656469416;
   9729259869553708360681353630293613722589056103555409120795902795783173840844;
   1053483468931017429697969117462906796698715564797793997498606794885380303564;
   13443597114859685005155021899238351728319039929031143617989626250087818253109;
   14820101144943719477902662717823637765088543093276468352598280360405236867951;
   9065548796158338060337651461675778711175652093509444927774787011571271269050;
   3435411417032805070298586523561646803070420716114480925619029289793011438313;
   4805540587940623223639290080898310218222299653462337326665155180494280143168;
   10077837725065878237914680861348069018225868185342487502251491135036055434882;
   15984115262169031959264716547825119492896449111608019177161117179098410095438;
   8152215632170670756343230118896137083423414552910010845308289582734314462431;
   587009046694761301715385218197628968497433560201400601478774355423557381315;
   9831731676540286642801682963386156517294599597893194079945816158547809519375;
   13132094898759229427536362562034855711570365645013875155790980543669021899224;
   8905808993639301557118228895160204725868290024988833386802700469051340375712;
   11875258092078748672796302505759614472808207189646013772771930833513263446081;
   2878831661724271588208474278288388221692716424596374107592949446582601015931;
   19311618887529492585462321691355252212505930203591203606510771385619630139643;
   11256292371466734462464921059932080966114891410014359450407711477656641584646;
   18386530245871560640669603998683086012529287002980665968877239407197326053630;
   21464694851624852316368258232033494769611811744885953131048840224704956583571;
   8947933513676792153219561066713088587203922224316073186631114699465946525685;
   2965045640151785273034020239421066213829610243852545364547941866375794598937;
   6035190583152836159365055618089931703847607658192471775669329852552432149487;
   15508683673997126348188955770221648882011223975756071913960093409175417474338;
   11845553011112803582511341770424187317657202585065760224703383692033326437968;
   166910113923414369566851036211482593469785761115477838081804064523742416190;
   16053410006416565875227289145452713870791955264730139876246773080384500263231;
   1532073639204567189117696194981558852723108105234178679575534539218518102409;
   13814218887625801160666381719676550305457571813568919016429139162597562179179;
   7546525969550722476988325313743391150496264739416894558664842093033328287067;
   7317445544509740195095871785363318947603756904873500767485872515215551500443;
   4461225283009247216862026835096199860407987594973292937605663157414924454005;
   2465414409113602534978119028911788416836141258045194293490416039682828379362;
   3903775181969301150093323936524342098347197187425113540590786583289227976307;
   18877566524210526904777109819547073942037082130476726729215095882200216478623;
   6039826095654411072553868362162047819585884437582740814870494838708720877421;
   5189336121114603358223463614538086992894142931139916855247754637524920864199;
   41338117803426262059243534887894008902130770610152972247530821762564706944;
   1425201233270659423841252252830899651772148122248542925325088148956851970772;
   13142147802514795278315465642395490615929394613830266433109418087503922378718;
   9028195512700372488020798073704747978267262665971832552969739460541783781805;
   7884304561315158658760363662518169847742610083072799990387487402626612955208;
   14623628715782178421777554258946872730724614230126047645749757759634036189385;
   5774727992570031325098412499216025880484792355230523285292530815615194215669;
   5177338003184291896897096575551832820622206137438489593453861176563322480226;
   5274923079276387766310078831366755037627280924315463904552388893569115910655;
   11065749975272303970606532557089705494454560565889978535145746612360315365787;
   4690038713467375776974132635466370321145231006340419775424880621576529406726;
   13463369510452561081673635759415933541449897122194057705283105059960347994065;
   4931089961677925203889122667733116355028253060590720962443741570913350788644;
   13095641450880082702323958709525570451056266621498438190822578863590953939067;
   4473991060955928333111563333108961039252925981943362203224819524212439755754;
   7825972081419509441774866046870693604300787740882839723290536905081499408350;
   8292521474133314836295527906853144770230318357726431339528479998402163127792;
   18540198059166387231556020946607717759287303548076483344322691517952900965671;
   2824991066025187289395199340697689747248882997987912591987898630692866256782;
   16835589319079752353750950632814000431373486967840111448865444815897197924378;
   4920932803267858843978945044450496380746474644228930200700949648093499895657;
   16838815544134298173645672252817040488937128890420933092256235582962843733888;
   690509283888603754688710009503622948503324136363270222860095792152349928480;
   1365028390018241069162537954934756169374878280546830548661270616706354323264;
   8473089581409889916128595621620811633482680831762052080575729725202786644083;
   3117483115437200105145238932213317290688999091059743995718495757178320711066;
   8113906241711103943805290454818374830095440871083802379233412715536925660641;
   22422249243862386556797897098191898745287412993641572790551033497500295721;
   19628020399779874744090589338466160161033073611625034226874077122227718006376;
   1073333381409734404615641712102852100709962839392481421008799389729890467519;
   2963083136023285350286660443694825132358859246698864807024199629213722459429;
   5098662835346858774286927915174393775533106663846964037942980634999472394796;
   12523546451973914408074487952075628143492781268719183501902172129466381769979;
   55244839037161083047826122667979688262103523692806304487296980089200829736;
   9317085415675950879226675338259206778115604269574495191104035230090151771;
   9350546988861828037624440924139428743999710304444069396927481004778849841270;
   10154904235901367426526544537018397820906565769381093349837605426524994493916;
   21542054823977193674311533128370677932098025062674759432484142342312428320368;
   16770447443938636679831356110662321239907229967246863948580367539236776151811;
   10946142152380855493325206510081338111791427117001796154069094022552005356538;
   16350658234785620482978269713429695494567830836787413113461556272009197133663;
   9689969387096317190121131879857950799830458743321255416282508399644016178215;
   11153590463731330398433023369406437735896408593257097767074015106092322228034;
   18606800069483524241419377917624725365267058399952119472227514572763706198800;
   595810942289108112864203158090222420160847738235102673597739184816019383394;
   6357241659485428151203306323539544296243128676262033043415650131980474658573;
   15703996687584896437936901739313607286214805309607695362906252846514326240894;
   11330532029013975431266809376590162537524642800853172922908941460467922530030;
   33321653429832520956989184975162095731196646689547904505001033741212027996;
   3506030417487831522759216514179859770031647147727048638139640136287218543833;
   164880558663670620977451842838735867560365256292457464584261460438943398591;
   16694421868626516122620911678170584389078919457023328438730158722375962762024;
   10736689492325717933091373610627864957973699286552778518504395384060011780779;
   5383266190807211913429304858152008194297258038912145705754457796534935686932;
   14741768588451217594462907571567511099551507761940074621197386407424323705189;
   2454369028879487534266412990353583892336400827943484224519065415968122131398;
   15595359356573921211746123865997620348276798646146342502558785938355046199405;
   1981197661379318200694377807501203140901522147449474743293088661797895541636;
   2718092068979670630614973696307509544603106326054013827719072758060485250003;
   11016087423885424311713082705268471652628576996983176818742900563356490626980;
   6532006414390841071037699528328094362693298937299357377093716192536609614834;
   20887977033882014976297720405636264915418079140271005855531477788898813160838;
   12789757790295262550342084397890049554312137100608489935589996203110755886769;
   2217935382377718618630398934374087827775694050388388644683153182260912236320;
   3910967852977763545669729942200363103510582501494757465293130895446734051764;
   8547715679618984504640785279269822304537595269927512117495116751075935450339;
   16543551514393194540640269234985989255169498103681292056680899384850931714652;
   16823249714204270815457658382248811784555181630183288247320953870202945252402;
   1515227100851127024459590717501090651262663406747676737034340873232989220630;
   513514892608700847099066760442496056742183473837103585819674862652776505709;
   8956572352593586022403558404196795695717317312814407347558707848465606162671;
   16041707901358744933811102545017521567866249766200446007380619526061435201204;
   5650802004916424923201610781130445744979392543240509471524279229219815882502;
   114641025491984570558531811814626682955526480213421326659624316264427287481;
   10140540355936157307101529400646568614681458990418963759734041209375206530773;
   1183203184821767623428751719912050104016391769039079819833368304733830289806;
   12836506733826422562389157188652289572065495224783931611173133785708061410936;
   5173610550786836896058202062479811461068866991274093026191916085662820494838;
   15495764387030265540192726761209582073567326596153801073886165449639569621640;
   10076507042829317720658341191133117234021992467623205101013130038067099011644;
   15562847060504272841145610109358978125981621602810161484779997257969476930102;
   1437485669226704059346133290937526046282593924326546467328769255522561315506;
   15030828379180557155909236877860514478832155779167677353643318483477133288090;
   420509945011399484860812286304175552289910589996222130359558010663641632778;
   8142151100177434082715321015482132242058411440067889402362525935290026658243;
   15351416848437533252346180545077587360283862493880658019551689911200928355068;
   9757970002420133429135305366338851953425754295375533658104769713146653778527;
   1085293534176803634263234614004565638941592293915361608433852565095275801190;
   881683041449210060313499516935592643288820523784043786411847708660360764250;
   3581332001462333551194150793136325377048136650938594326527889093851675904661;
   21512080164238437334486292945572132655552008056199375478868976131826781835664;
   11522174639755524638353919508575490937872871699552261634675484741974968497900;
   8925985209691500014515453424161834641703984110289243237616704370352481659229;
   3542723413667979218349791343156546283159175798472912758638896367004624546530;
   1418795410351043780045327761828158893597827490543366687386050621003357837560;
   3362977203292275832021509810077250978600432440622531855009607511709386041849;
   289352552769609525388964249476807166820080272721290578704273406941058522360;
   13856584451145048185553240218001113935716282058612222137280307259843101684069;
   10530593994525909114747227900085420547613766782031553034634523059211485927024;
   15337854122060947621132614751003917075489381763391027832255072263003134258566;
   5118598851815786146807908807141417093847398329258465519985089098974024127749;
   12455066747467844443220048538608653393857841236652250648467156707774491784207;
   19003700791556369036787116137969189751702620485882494947992001241016218712638;
   6282267251862564416452242842247962162915112560456892627142734332083831752786;
   13189638667135783788360122616853451682668716167280300654486657230157320843820;
   11446813759029176960826818264877469105409006004571038254147069228115012275978;
   21273625675556805514764186823048400818444075957069803985785091397901245794349;
   12685663769112422900066606626378660634951167496563427600606730236473064004223;
   358747552200719870078021660639542835363254610250725431461296908679750393252;
   4584280830315847140822598812044696542223137229037398421739989611483457742051;
   9331832953600770357248607544824349046237360841236119179081169005029120673146;
   12393852153278690172053042573460057097486159216525859637432685080575573421202;
   1882906945576815669801819792890925585395916174617338641756992169831596452684;
   4715932493855718807318633997739242321325255707706752530417814848888847481250;
   6556249303705019647331312457409870489169092982038209474544269751556596990625;
   13384649249105158954968013622267922145912797491550348276927804370739622886644;
   9620930716909429826591484351046704456884604863073264655030312170098792987526;
   16123417447464624770122435293495900681668640220902219446015270115167348398436;
   560223020684968055925308109269597586121699585220465742008045759958198496253;
   2957409240427997026455874155698665053134638236614138810337667432993241755502;
   998144697556444546772596734044645629488834025211316957850508416804729305240;
   18539689463452145818312431482440942412275104430913597690103315584562083615613;
   7042851156475819318240529922716636271091512869482323391454718554080750889781;
   19686774794596255039214847410207567670082878013415971047568716051850365011055;
   20111135904987673379108603909428222998801853193961861882107104966433486241542;
   2604893836782185068700706561077845767609162672534637551440521922266665812215;
   11330830437398662826450021653779973650737416550067023527242473904099249777904;
   1700572214715580665499602477919997823300583295174217787590151628772755703145;
   2005462225393988048498417100054477082155398735220360326121058477336240433915;
   5201866652341250357440322052627403710276905995811938274465828517344265782664;
   3692713829498438468554465186809145674275744906937291651161661800002765037241;
   5509265043608931117860696112223578992603772558188139027615339991509332819222;
   8793590755424786819712434116316007028471186189850595737805479185883880281726;
   2876314342827549784859963532771060926917038016566395649408953033164093392298;
   13347016049832446908076412785011726347631456878476089472889175947159380364024;
   8228537460238668688603067867257407808716640539716546575588679821810817879893;
   13206068872465351623991348109361572520321883343882846820466541731294942084549;
   77011130542751749770401012006248869063462415276043128271971595144483306033;
   9557389394530261178400985292075138406081187330045032108150895428691381943216;
   7506229602938586884374577491373052300273570405667063491290384527666249673506;
   13966783315407307550949750049129969478904886577461485766095289021140918211602;
   1322506995147465036065571376174481724763295204418547691002166455344395792154;
   14809222529275681245942121404345496656207841412615365944301511181493563360243;
   21146738593252459548175950385529692689263544536704281615058657613388584772013;
   1591812901660074684202083705448400373277200868797470403629769147297558300123;
   17209108507143519303126629208882707216545547312239758690544393838229690932747;
   13242767205477532272432276916242043328437030477833187444166941448992493689789;
   6627327453605879701341041467338686267540192824971093892095940070583485558595;
   6850217229589005539076203412069963735773502833700595898549015459147018128319;
   15573588258914740170078844516942448687670508268934286443815818058093783533630;
   16234614760796221730179773952870416911621813404557300420204597753446288466591;
   2054114721561062847356932844722679162405858805456683677281302245775067918221;
   14173224546131223356161608496912332521760991347970257729101736593819533894315;
   13922326398763226634654960770630828837582997682420405446102109745724991636294;
   14678288930548420164431818426210872545576906242852914161273903683648852023790;
   20847844144683530559924525328409443360164536380697594619289906873553679309853;
   13782148714932019298384519972425422827798822250673952047005601634435129312766;
   985309669637249466148012300764747979368327847234883849843580726746476117913;
   1558735218011805520850903278868103051420977523547313794646580444606498546196;
   9763689483217990680042145347264168888095442693313101970180696186907064307617;
   16067582784746600495170058915579891523010690871749731652103552211689170721057].

Lemma prime_of_trial n : (trial 500 2 n && (1 <? n))%bool = true -> prime n.
Proof.
  intros T. apply Bool.andb_true_iff in T. destruct T as [A B]. apply Z.ltb_lt in B. eapply trial_prime; eauto.
Qed.

Lemma prime_q0 : prime 12048837557.
Proof.
  apply (pock_test_prime _ 2 [2; 2; 93001]).
  - repeat (apply Forall_cons; [apply prime_of_trial; vm_compute; reflexivity|]). constructor.
  - vm_compute. reflexivity.
Qed.
Lemma prime_q1 : prime 5156902474397.
Proof.
  apply (pock_test_prime _ 2 [12048837557]).
  - constructor; [exact prime_q0|constructor].
  - vm_compute. reflexivity.
Qed.
Lemma prime_q2 : prime 1670836401704629.
Proof.
  apply (pock_test_prime _ 2 [5156902474397]).
  - constructor; [exact prime_q1|constructor].
  - vm_compute. reflexivity.
Qed.
Lemma prime_2 : prime 2. Proof. exact prime_2. Qed.
Lemma prime_q3 : prime 405928799.
Proof.
  apply (pock_test_prime _ 2 [11; 4999]).
  - repeat (apply Forall_cons; [apply prime_of_trial; vm_compute; reflexivity|]). constructor.
  - vm_compute. reflexivity.
Qed.
Lemma prime_q4 : prime 237073. Proof. apply prime_of_trial. vm_compute. reflexivity. Qed.
Lemma prime_q5 : prime 11003. Proof. apply prime_of_trial. vm_compute. reflexivity. Qed.

Theorem bn_prime : prime (Z.of_N bn_fr).
Proof.
  apply (pock_cert_prime _ 5 [1670836401704629; 2; 405928799; 237073; 11003] (1670836401704629 :: repeat 2 28 ++ [405928799; 237073; 11003]) o1 o2 o3).
  - cbn [repeat app].
    repeat (apply Forall_cons; [first [exact prime_q2|exact prime_2|exact prime_q3|exact prime_q4|exact prime_q5]|]). constructor.
  - vm_compute. reflexivity.
Qed.
