(** The table of volumes of the unit balls, fplll/ballvol.const (generated from that file).

    The text "d.ddd...eK" is written as the pair of its digits, as an integer, and of the
    exponent of its last digit. *)
From Coq Require Import List ZArith.
Import ListNotations.
Local Open Scope Z_scope.

(** ballvol.const:2-129 *)
Definition pre_ball_vol_0 : list (Z * Z) := [
  (100000000000000000000000000000000000000000000000000000000, -56);
  (200000000000000000000000000000000000000000000000000000000, -56);
  (314159265358979323846264338327950288419716939937510582097, -56);
  (418879020478639098461685784437267051226289253250014109463, -56);
  (493480220054467930941724549993807556765684970362039531320, -56);
  (526378901391432459671172853326728060550063968386175500075, -56);
  (516771278004997002924605251118356586703754809431418461569, -56);
  (472476597033140116959639086736783164986290111480154022006, -56);
  (405871212641676821818501386202937963540531606969522590381, -56);
  (329850890273870686938210650374451170369447909156183438531, -56);
  (255016403987734544385617758369529672066917255523395825461, -56);
  (188410387938990024134828704596247030444821983878757088941, -56);
  (133526276885458949587530478285058319287113545566812029991, -56);
  (91062875478328314603816989519746732567435411695248430710, -56);
  (59926452932079207688773938354604004601536358636813536959, -56);
  (38144328082330448281774366977538151180713741255071988715, -56);
  (23533063035889320454187935277546542154506893530855859851, -56);
  (14098110691713903791632711973575485046279663370704050744, -56);
  (8214588661112822879880236552369834480783746079775312311, -56);
  (4662160103008854577980308581663248587608682440270669359, -56);
  (2580689139001406001259829425289884965718644104814668599, -56);
  (1394915040902100118239359659665807060748020277374919168, -56);
  (737043094571435077725908995729078150121163823602099744, -56);
  (381065638685212494181313381380666820672303164707655101, -56);
  (192957430940392304790334556368595764016847181500030335, -56);
  (95772240882317287085664512386418734706005801529710946, -56);
  (46630280576761256442062891447027174382819981361599267, -56);
  (22287212472127410876149755331532225348544350829318964, -56);
  (10463810492484570711801672835223932761029733149091321, -56);
  (4828782273891744035080372832307872986142559005042791, -56);
  (2191535344783021582738465205709418885924870876595578, -56);
  (978713994673736768588044664432891683819954092164034358803, -62);
  (430306958703294700729782371496692330089609015560084108780, -62);
  (186346708826214027921181564695895601233004182055674013236, -62);
  (795205400147551278478320686245758903276824593842811128562, -63);
  (334528829410897298741822222497534824830635012647835357525, -63);
  (138789524622137721144680875039930934377703784997799014943, -63);
  (568082871833117899201202777180523549702523987788765200013, -64);
  (229484289972698731102038723855715878560747855810879887065, -64);
  (915223065015956549183029023983166007872557958556370868499, -65);
  (360473079746250093385942876362119701504149780226516508001, -65);
  (140256490607320136493273393370519933754417324759688133996, -65);
  (539266466260812848935231228565622592722519011781399910157, -66);
  (204943609539647804017172811013792751968167347143716595416, -66);
  (770070713060135337978723602565237678942858952591507132680, -67);
  (286155261391081159324687271787601161646386052824107899381, -67);
  (105184717169320644551330616082432117155045168306895246733, -67);
  (382546071052037263055374448562827012660461513487892103491, -68);
  (137686472803774137041564823120508683967739347201900717259, -68);
  (490532214888456870368952747842769975438251887334958839828, -69);
  (173021924583611076115452730581917680393318424411101366889, -69);
  (604334275546159177273643773266212734445106484826806417219, -70);
  (209063233531476846984206655788704287977342361191757790230, -70);
  (716442309572952265350848506464306618953108555653889329027, -71);
  (243256117999338884545626097423960871149839706933212496614, -71);
  (818461780536469539738407033836513614815765608562668592737, -72);
  (272932726159819611484441138200822426282090890349722202714, -72);
  (902201234027155904807360264416616345226041262569768977825, -73);
  (295670154285491059203128461232499629781273347489258022504, -73);
  (960796192840460603589911823509084063244065691928135938482, -74);
  (309625061529686477967508532388030396322049075188253235609, -74);
  (989649265909715846377693799263762646005402814833328594122, -75);
  (313779296344822822040309737111141857790099495978205994362, -75);
  (987007893146823844374891591170238562085387757936789941130, -76);
  (308052103826709387394470647488814792031852714580740628463, -76);
  (954085152660061975834040220335506827165101528973974139114, -77);
  (293264917062081952889631874846106728802418996734099180119, -77);
  (894730419849536442316832164920524731001446090701385898825, -78);
  (270976149705251962718671603921784779651129571963765919729, -78);
  (814747395345685508554323741224269307783218549703343915408, -79);
  (243227623203447880706173497195941855721632427621503164506, -79);
  (721015332887161829226131716544918204474644872608652680240, -80);
  (212256142835016164963241172046081687735309860232014554524, -80);
  (620585335047645712022903044712435727674797623054430714072, -81);
  (180222253786430435905677855385443422430350434155636168346, -81);
  (519900354536331788890208405544215670968230016619095351143, -82);
  (148996028554959251379105303145336347383797303867769437732, -82);
  (424237697249368541124074110103725310226659849378142921010, -83);
  (120021750954439754114481857089625823497452436840403302393, -83);
  (337413172925181529879331421423907252692163379630553391910, -84);
  (942648627673629216096396512795901097687968366316718740920, -85);
  (261732035873129091585112663759974418715817222310483664059, -85);
  (722297074052676539995752428609274889528467713372008583345, -86);
  (198133841230872910672623524663265976023939178415367832465, -86);
  (540276947988878924636603886211702914721218601646637362723, -87);
  (146460192950220426544573906710208701963655140343625639883, -87);
  (394727928071110894457202211132747306088015331616124721037, -88);
  (105774314072587613395157167748051317019897654791115474598, -88);
  (281835081589755070587207895965161430042108663386933348083, -89);
  (746741141638069056593407519207189121312390540953516604339, -90);
  (196758004854723225624327486251072538019971669088345358559, -90);
  (515594831802947914180329338842533523356001517393758236436, -91);
  (134376848388387686705774845382699714125937754697844464944, -91);
  (348341706628173388497690265304205473655702131562088785909, -92);
  (898207063211719582246635834129509337334983177883489968282, -93);
  (230388999259368527022798500098655072502709196680727593001, -93);
  (587875148164250265771650145216429188632589831377342422093, -94);
  (149234719080646696885279637708279282003354654368139492180, -94);
  (376911070755269359112043457037303453822092833899245940651, -95);
  (947140802271305466022525146470792148996895909978385814082, -96);
  (236820210188283396131117432457541701103907108278836304506, -96);
  (589213977491223011054812982803519408327696175019261523329, -97);
  (145880908342961141699560530906885410746896225437347484680, -97);
  (359431126811426796785697423564425656915971127885249891862, -98);
  (881343057594716731517881539401318968616336638850092998751, -99);
  (215083083326148531336316095198330614171438963585907213855, -99);
  (522419033024892096507189846995800606886709435409577600757, -100);
  (126299707381097117212405726071534759468056712912533702455, -100);
  (303931073378978627745745988541856986632705148950033612771, -101);
  (728040794236688601737899380118598959217267424510834050731, -102);
  (173605023150010842474122301030927597185671651409503446268, -102);
  (412109479403181836402594466533637996554354798776074814456, -103);
  (973921902418500086435839345222454331351684798529711929911, -104);
  (229146922649159339207751393420857809417732654062600460092, -104);
  (536783490141781641344526941036205524061801011473187178239, -105);
  (125197615441270883873809243553609235588102104198609845703, -105);
  (290750873999605242376249772935383489897503954378868752733, -106);
  (672341724644883194563560855543312850344553947436627464840, -107);
  (154817086403723975239251136103090169718481923474113240235, -107);
  (354995600478362467431246526883424741798480147993683404706, -108);
  (810620368826859172018314209435424776528774589092806444287, -109);
  (184339102565210052561831402602863952433551064160960219192, -109);
  (417481802550280232192225374464237850564673215300877371075, -110);
  (941655886810080180174351173616115895179053312381206895254, -111);
  (211541574822481449172835637044928213990578677633417903013, -111);
  (473327874593940764060125992310055557003032515442426092475, -112);
  (105488485300178300068922584682483679744490929656350281460, -112);
  (234173759616314211448802918962749257338797553680071581458, -113)].

(** ballvol.const:130-257 *)
Definition pre_ball_vol_1 : list (Z * Z) := [
  (517815391339617253831668276524298649385898270009224224413, -114);
  (114058691918467430337073840725318794159282198631925139635, -114);
  (250271542976656216777476775175925673267795103469451502590, -115);
  (547062516960486716714727218929450675245085500118353521237, -116);
  (119128975881522028024566829493657662206872012363559011227, -116);
  (258443245765023569030786400046173302058506492418891465022, -117);
  (558589127550843680864985475776364606246820859822148955195, -118);
  (120284948483748072254445478626492962774087214629052096148, -118);
  (258067573454244482686051429949000447039199052614993926203, -119);
  (551658847436452091973753377631223504284809615693993416453, -120);
  (117499013462840407008994178477183836767159486825234636457, -120);
  (249365090991966969019760902755587256455851368135300638151, -121);
  (527334339284153764053428847816023407437416554797067708375, -122);
  (111121069208810461910190553748813551053340870831523014368, -122);
  (233333758631088024252324924111819183394003783381641972226, -123);
  (488247740818799895491869702598546959708252965861606282653, -124);
  (101811058604155576046261107301622835286654572327272199033, -124);
  (211569036646642092715036555481942758217467616647646222638, -125);
  (438149142143856256084070647778625765295694869038845550389, -126);
  (904304396266885092348773308747460536111633430386213157872, -127);
  (186011638667001200631953640807987592186721988777794244846, -127);
  (381336382271275094194414021009030156334921546004340530015, -128);
  (779163730024600122944904280949130963778793689227889128064, -129);
  (158675970475489656782312308383759441689619860453287619730, -129);
  (322080927656434836201374958312127510251113663791765579583, -130);
  (651627794963436910872870327457485815446229810170025130853, -131);
  (131408711193096278305589488463836811205614798840722090961, -131);
  (264148270133167673585933170675537531136964763602086532703, -132);
  (529272617566582181517002171485120387694189973407009030316, -133);
  (105712899988383663519849161264493644204067313861937456268, -133);
  (210475818619419586192243174230496051001874728610408294909, -134);
  (417744490557457429296362995845702233618642314286737270416, -135);
  (826536606916332987234343517496849724745166118583855966978, -136);
  (163028946908437144120935517279460882315735751879876506037, -136);
  (320573003976714370431859914037230744517223761860105762538, -137);
  (628430112797578608887011853856051399358251292229236963122, -138);
  (122818267589324077976509239920801763569756504783034024387, -138);
  (239305627352664007908330316003936785952920152901367590409, -139);
  (464873454440055335410698187649382169869545138389069673540, -140);
  (900360240543504105582043899978093765037585589662471727468, -141);
  (173862265394974677477287679148778946567871867734777070270, -141);
  (334741433997137468286987370301487285413331099983078334263, -142);
  (642593430236860445220523809206506264493817248956307456177, -143);
  (122996635075733301497803616110329302003450019150340184462, -143);
  (234740325543858847061084092022491921699222668371987917545, -144);
  (446711358578252511322842120817681441941495798802020564315, -145);
  (847653427850417747122344947744692956657557778524340315637, -146);
  (160386871129663309026806262532174058684639978680211804518, -146);
  (302611566105122527005253328682219839049459476119145559568, -147);
  (569344876918873620488969378530195425158894374098057431267, -148);
  (106818232917657866525156230577911196276787921197275577007, -148);
  (199849126557242279544553524378101689711033303876082142643, -149);
  (372865973115063754402719803119718511099010968405433415027, -150);
  (693750881567479771175986884873458750858009651463628200902, -151);
  (128724505704603697170795528603943767152489348736361455301, -151);
  (238194827645228104041376965277127407158742619261273539993, -152);
  (439565175498435224345031897520321242725370623603509359752, -153);
  (808984995300903352375610531665611430045755118279415762435, -154);
  (148487604959117449695847445286521230552628557527372826507, -154);
  (271818322791624746131817569031137723897375379195900039609, -155);
  (496263371158198649711671239290135048103664494465719879552, -156);
  (903642799992875514553930953651039727308081275529415184064, -157);
  (164111301165926500995209441115398762543309682111604894082, -157);
  (297264668264599851548426475935490687825924313278149188119, -158);
  (537052977202017463799497023231409728218727050333443032962, -159);
  (967755956468263051798682911486091355940201803404035975455, -160);
  (173938318326431420175275812346298076606145765615958455558, -160);
  (311825128544457328288105689153520960559908906762704468883, -161);
  (557595247991918213662749596610549561543601260941606321119, -162);
  (994545718822294496264149692789287022457125814956995760986, -163);
  (176943144926059512170132580362555516006313866202788236252, -163);
  (314015831548874426368758516169078837782628820620781964361, -164);
  (555883284202782662144158085983166963766857557968079877137, -165);
  (981601820402819823400429624897990223787096143837412311403, -166);
  (172906816030181106529215586933031628257224085625167911682, -166);
  (303821977116045948198399245499653108014610394532742293059, -167);
  (532551748035312609323822581047523078403892417272253897205, -168);
  (931204772006728026409663926804685732245545551843607345616, -169);
  (162433073716906863896375633317688566618970115614364996648, -169);
  (282653726640009189612705871244197723355709177643393343377, -170);
  (490671683739465321233711946482519024493100453904943254105, -171);
  (849744374279455026543833911226280291650545923360503799594, -172);
  (146808624472422729591498243336345577293454016445276252047, -172);
  (253037979494368868872580180775428568769898154352874032397, -173);
  (435106505779420738166691372300914448577528489821395893826, -174);
  (746424654890811251363423524833557743505330378877134100634, -175);
  (127750224493995617265432123494153029012413590138555486603, -175);
  (218136019745420405485533033547428259269549580460483025709, -176);
  (371610339597021752253634159980394364583043654572362759404, -177);
  (631607849876065277217174284602888827829392539650459319221, -178);
  (107105349805138695706269120067444900018440964149580874405, -178);
  (181210464029250381248467091237516584558300662157335792227, -179);
  (305892163734535199268240650386855395230437931302089600529, -180);
  (515194083753747041855894219527123731193792237835596488665, -181);
  (865755472413605364198497726704063442994052067465825205759, -182);
  (145159636654143170852814131050592603763380591938373585481, -182);
  (242843842137477099392764796045148533856540414471787192779, -183);
  (405362176098150986451228756225142664610845388002812897871, -184);
  (675147283565148254427463894645366888251636963984422513850, -185);
  (112201130790583543304940582210994780265327951110084038430, -185);
  (186055942643804798752477253442984081185175986641755182834, -186);
  (307851745166956165517604847465222183028478719675729746068, -187);
  (508271289188261816238291798822823175960204749895164979088, -188);
  (837354788754378030919095092078926184513392576070408986683, -189);
  (137653564495211778051946662887652629290362355624176979071, -189);
  (225804948738110492370959934479825673358127334226907144845, -190);
  (369616604238124886492837255852359189485785107033007295683, -191);
  (603733760084993851839967359542024359765436055407076744162, -192);
  (984054922473982355852140115478349977404264035760322915853, -193);
  (160057851933093622786529037717265572199588558871491832372, -193);
  (259789892031356007760315165058190752365316454617164774998, -194);
  (420783742077296913590214699199092143400625515051101124791, -195);
  (680128346902161334456875866208505919849364190657078516951, -196);
  (109703826793365837988945473752191050262736434498277570484, -196);
  (176585637861652930449592301548469940228865245663150478840, -197);
  (283658219197304725138653119053467205405401961667919015387, -198);
  (454721428389865977013750013287681737483351359736022411555, -199);
  (727460063314788393154858578016826940110455336296333458699, -200);
  (116142235679630910316218045753835959512432674029200709906, -200);
  (185051270501190693828311566358541456158472397360042049584, -201);
  (294251285792437770084607743050829500387322550937195150699, -202);
  (466952379071484577986763010682910545549490102883521185236, -203);
  (739534142203898560181460442144364342026339971097701299634, -204);
  (116890371606952371941547964686495085297939093812573380519, -204);
  (184390081605285490579959114086011478998874151865116056156, -205);
  (290294017957140336938859044314957404578107114468078784633, -206);
  (456124823437785327987301323191833044070616215684015299486, -207);
  (715282787604090666960265596062387806881563385953020644247, -208)].

(** ballvol.const:258-385 *)
Definition pre_ball_vol_2 : list (Z * Z) := [
  (111949874565006869199583902022827075704255010860770174138, -208);
  (174873708231613981617575407384364863807836295740478698567, -209);
  (272636359305212736617927820818543551441740331337745001867, -210);
  (424233171495323117900962921791051294414735957304202110856, -211);
  (658855679611325845567840282961950372636292648397588727580, -212);
  (102127801914084749972277585444232558129457767773000624383, -212);
  (158004287239912350914687734249583879038904358967422048509, -213);
  (243987796365446596775839247456412024687804622463267482773, -214);
  (376049324264091022924053365160011030217830304269830629200, -215);
  (578498315945093950232883612781914079287643217850013299240, -216);
  (888266010898852885805163588091155196429729778946807907809, -217);
  (136135285354844516902832749524505954908279904287779973996, -217);
  (208251490617413988011767018235029567986205135654391539457, -218);
  (317978893951769295968582525208126719513541789955375518591, -219);
  (484623224461327066417122023261540169037690001607661445269, -220);
  (737239968439473327079309845184981280904229495930447423725, -221);
  (111947703068139889373185897510496723890902664697987474561, -221);
  (169678217493202961762039540792978441225691263874633072096, -222);
  (256711008427094768731420594825090527626665159713933636057, -223);
  (387679884764260049091889656777766618254794382924916316637, -224);
  (584406824761006107674342196378379729378003527472804383728, -225);
  (879373485862770384065297618891272847948043464376685775206, -226);
  (132084042257331975720381631636855490977225287194074802380, -226);
  (198038228168324540562775208953507846654686375072323908337, -227);
  (296395897722912818098081271210516951545913786775693863026, -228);
  (442815261739179809168978717046785350338260640468756018219, -229);
  (660393741021599032256380662214416111276404275889439142033, -230);
  (983141465142931970313102116579755133535460060862723406249, -231);
  (146104797554234929382122860323879012005121154923898511757, -231);
  (216745965216318656940913234550630602637336983170280156682, -232);
  (320980250804621290130973513988591029159435925924364396829, -233);
  (474513959594993416795152969025490147536105322705888730614, -234);
  (700270276302227475782956169828047213546390710160303454508, -235);
  (103164676089234276727493595367632827269040167796234307754, -235);
  (151721652107473966863026989320409966607256808278314573408, -236);
  (222750095197188319291052837184923708292196670852634903892, -237);
  (326470977843388072073301822160490602415855179270557345894, -238);
  (477672397718712566659659772650694874946326436668286589433, -239);
  (697713486804805528666419882722199047774331919762356783808, -240);
  (101739125118354529519423401037314061889757670899943635568, -240);
  (148103484084898391273910449066267959144208513815393937076, -241);
  (215234268050151780114075799157560903106893060759254387415, -242);
  (312269005081993052203804807657361155144413541414275706963, -243);
  (452293241008115842088754319245385504666734364374758809332, -244);
  (654014674872922122119556646093124376944897622899676078025, -245);
  (944133636690640889187960295881986051795628200950469994090, -246);
  (136069383968257568250818641444229020361335324386061117702, -246);
  (195781075711837114617793338341548444147058766571220711135, -247);
  (281233274377083397535969359048105232609002298014221050789, -248);
  (403320910929976773173614977583332520259468593477356947612, -249);
  (577464306358201200604962617775172322945652066257648928923, -250);
  (825452775776389820364801726463472666457142892765072510600, -251);
  (117802443023717572822072547384358869426763357477272519206, -251);
  (167847014644945572578976444316194305689667053121295874734, -252);
  (238765993276284719931990329010974662333412782521242147390, -253);
  (339104146710957844844192823175331225556286535685500572791, -254);
  (480836852822978233130559729364085815229064480043032604556, -255);
  (680720189207016366019167584737107506251817848116857057280, -256);
  (962161480512041434000342290996791780778592000901006161089, -257);
  (135780669559556614375611763023535701149503390910303507242, -257);
  (191311356882513188772295455622483582791694372222917821903, -258);
  (269127794314073392101030318536918432538739201359515527880, -259);
  (378001480082011674687462557182715508176001876803954231565, -260);
  (530087712535371721941185335823671489022164252373975150883, -261);
  (742204170544822769837250309784583813260041971131114162111, -262);
  (103758234483448096755132610549194288056304280932259607149, -262);
  (144826283829026162872914700189110377598025230644541160447, -263);
  (201836598887088356660010477013459093936525852874217581975, -264);
  (280855055138258558259482404775183233342686059655009114709, -265);
  (390208231562600996395590116143917181445726333078335993053, -266);
  (541308084629392268926969433191334235821421458535358815971, -267);
  (749770834035065551324130206897224317310415474001642651326, -268);
  (103693262317101270009484589317168510821735871061066358094, -268);
  (143189941889389303873778742371044447507959854651134023336, -269);
  (197431509771008903701530647654556244366798356634711106742, -270);
  (271809347134534643654905360073738625426179055687599618380, -271);
  (373644205231170514330557559646555009914710944961991957464, -272);
  (512861410291226398901572223235851982540364139828395106117, -273);
  (702896940245893580986349376172036585738400152575856343678, -274);
  (961911426197383664004183549538206948748645210804257933673, -275);
  (131441420458764473222600262103495738954306538514841086673, -275);
  (179343256376604219693112076881020378411808665162801570377, -276);
  (244340473899799774895882168393872607393159150111668832061, -277);
  (332403219294165579735381909445831368585162079860540908742, -278);
  (451540139869564464925186564990901699193736635686691772829, -279);
  (612478306020027919205322951690125808236267836818217770978, -280);
  (829564436383117791057536660025404828167397717118891413670, -281);
  (112195763654556323348454016240401598696803406661193854912, -281);
  (151520554594218618666731559269409426981415080192612632438, -282);
  (204332398180319349677568470386677948464919478034706148154, -283);
  (275153676983264975298839583422662126403381440626039505337, -284);
  (369987989056873605179478913313763895488232566323084205176, -285);
  (496793546102784039410301646173012491052637306176186694859, -286);
  (666104039161911135495477504424375169880736255063362175569, -287);
  (891841688449902054548781503148500988525005603341723413254, -288);
  (119238037376498459209221119304417976757589572376149816660, -288);
  (159193369124961900611756635796759805790566836367514730577, -289);
  (212236454532845746475764305181690933059993154445528800620, -290);
  (282554078498976564172204021084279470865838211156381075699, -291);
  (375639710639060490224968138178726943907796447748628852389, -292);
  (498690908569785689337819394247672605747890311482160108727, -293);
  (661124344728441530726229682069029184436450674141460299202, -294);
  (875242287583719544896919409967300663199926798690678434852, -295);
  (115709380752548070271502924138880110732299893429422581833, -295);
  (152758596710229912660784436681779492139216134204152535342, -296);
  (201391545996470492514589298751988026054456356568270128543, -297);
  (265141041545604558570545563213222820921981601955976026529, -298);
  (348589642643307237094976292466665988552784143911958970454, -299);
  (457673158398251340214876104047362820551005106565379877651, -300);
  (600069402983948125977226482008892838963083068738509348657, -301);
  (785695427414854750117808316776619029156583342866456610531, -302);
  (102734257659857470626235472874077380337068601119628370426, -302);
  (134148640365521756337638882368795082440458099307791802007, -303);
  (174931809829923671150573244114246202898327728410870861382, -304);
  (227805612465612078518121114209627675118867206081701941770, -305);
  (296261179860299182462075965547901687384913493804258632646, -306);
  (384770128262629210180993381982474821793814320015335554739, -307);
  (499051981872900975177122692520737690075184700740328336383, -308);
  (646412303888063316138772384635351432404287979840563627362, -309);
  (836169621339377262913601435963637570721710894958410655729, -310);
  (108019369419403864599607600002579049755707106541773648663, -310);
  (139358320400782324543154015936498375669102295124522928348, -311);
  (179551776409206957869045954873488221567566189037696972761, -312);
  (231032757566074069304974304842949230766499896652526685948, -313);
  (296883443003243012672622070502860354610058472346827181620, -314);
  (381003051920299221237884353459512074815607677809170128733, -315);
  (488317719115933168105087797064493568787354341961574704228, -316);
  (625042500735301618203019836394282912943775100404544292582, -317)].

(** ballvol.const:386-513 *)
Definition pre_ball_vol_3 : list (Z * Z) := [
  (799007999475176971413560123683953812481556852575143724540, -318);
  (102006697583969688424471734024405253561816336452233609081, -318);
  (130059982451331261390448404138699522936115255892526519335, -319);
  (165614207621061955680593554591410232112886062972178584194, -320);
  (210616229585113257266917785151735478668410066192296943422, -321);
  (267502507965256034895740386095609615610306760405080919711, -322);
  (339318153636601577088432473547044342654581645583812813747, -323);
  (429863894547567012256816895956188470399892751524899619446, -324);
  (543877254435918519985575820538518401283533121312351975183, -325);
  (687255599569533894755496533947252258747424752590717776280, -326);
  (867330348726126095895050824500363833264025368195671988293, -327);
  (109320361658030195044052870891993961100571136532311254086, -327);
  (137616093524922789252908124321304141407877582000013679364, -328);
  (173017654948436760370151400480332098245206392327220950400, -329);
  (217253119815891129936605900968523997322288741246619189694, -330);
  (272456638459820883828190432800022090647153046218627958985, -331);
  (341260402591533353779518282999800593203482901831010536720, -332);
  (426906620352690078537891736137906109123716628525911594823, -333);
  (533383668528684787184930514973254823393168802564006047564, -334);
  (665591415518043701071756311154334849991985364466153830707, -335);
  (829541690393311647711715039438004234713455821081499274919, -336);
  (103260103767107041810927395514395886156996389751208124368, -336);
  (128378427605225942502822412531527421315246136791839115627, -337);
  (159410900935461040109368051455197281002222014589939923139, -338);
  (197702316198032810753870366377699799902540002442054598244, -339);
  (244891987912457067131688108231756068806110469188537121845, -340);
  (302975680080695736897220401687521123870009747806647216190, -341);
  (374379985473856724040526382624719051643753472801737628259, -342);
  (462051539202856884317933962963385545426810976979526643612, -343);
  (569563879910761158289873851156501184435277174048787269912, -344);
  (701245275912826829964634899605663478785624614321436104089, -345);
  (862331422109757337718146347025643346042699426485027361164, -346);
  (105914759960205978832472753805949092304079242231105053450, -346);
  (129932568856578064933447426706699177723775905808030453918, -347);
  (159206235309908844375451349028343129856608497194436632418, -348);
  (194842579370823680230819545333841804500826777494776859592, -349);
  (238171971073951221284054816103993279766768064026597899364, -350);
  (290791456512050295605271619480775503153088731212628171512, -351);
  (354615788917974357628957607145378800226564804214939077337, -352);
  (431937732153632647514662213221567703825616579129795576117, -353);
  (525499225147008045342191028204092902585790983165456232447, -354);
  (638575249949217951319577583643959606780605408642290973751, -355);
  (775072537647403384970883495603607856962113625321310054169, -356);
  (939645580330083889288495455283801826548411787897761079833, -357);
  (113783279919265463587587819370355828469210794950292936812, -357);
  (137621615484527248078899431980704849228540651936519932611, -358);
  (166260798277076940795297652678875892637430542403344861239, -359);
  (200626940223364332260816155072061009849103561574704208407, -360);
  (241816528910759013964557671718774532520387113905711893794, -361);
  (291126153126060036013866111657211100919689989231965730692, -362);
  (350087110941301550518272245538484291504943471349386507645, -363);
  (420505647783304564888031053689367262528107177771576576773, -364);
  (504509676995260493702666689770888562290266745476196069838, -365);
  (604602953715810867236405951098610844381145016683361813176, -366);
  (723727805896470264414715662186650528020985502319104287997, -367);
  (865337675504456129614386847074115951780848486725627935641, -368);
  (103348089009227764896517301823767131762234484057366466021, -368);
  (123289727176384025195323476456086000997420667320059622140, -369);
  (146912939906757465840809061352692460007411797714766379791, -370);
  (174865056957299293959697711715020700210971706480754323458, -371);
  (207901176904661269521647936101968744121463674669521330833, -372);
  (246901023958027966230415168140455252173119247575427471650, -373);
  (292888255621684230578321556872594102901629248728966895841, -374);
  (347052547217153554173580497864215107390227974606315086136, -375);
  (410774817939202071009643126344838413904561672905877115091, -376);
  (485656005677966346148985490990582705000553009905553579422, -377);
  (573549844585547572052241718227285660056973781663279905576, -378);
  (676600150602954317255231643470827101828001525259964013054, -379);
  (797283176202444204689896736842990070510346457528220073533, -380);
  (938455656755845031855229809661580642406195891498172963825, -381);
  (110340923752790104870503507879432944025218452116330616258, -381);
  (129593204263030653531189347099904673078699181517359319659, -382);
  (152037822566700400204996062513098446315111893144171523052, -383);
  (178174642655535481957293938954321170550462686268856608422, -384);
  (208576815040757405884977430793269132274613414271342578014, -385);
  (243900718266935459434240177952323410692643599431230424426, -386);
  (284897126017913285693346154532369770778945693963045472682, -387);
  (332423733064068688361739325870926614379520021683390538051, -388);
  (387459185336243256843338174504124465632134624206956966769, -389);
  (451118772212947144583276564219318408746980641116525311916, -390);
  (524671952680270671556630878712313341708778973271423057339, -391);
  (609561901368018108599963887218327527039481232611823586331, -392);
  (707427275572939901251288955961039135686196165878438881790, -393);
  (820126420233829476231217333803603104461446481188415165311, -394);
  (949764244397004351802805114769617611529952727949830570313, -395);
  (109872201996652206478520919864553858664401250417080180950, -395);
  (126969037142122970906878917057304288345741356799252543576, -396);
  (146570574363658761911587066425560814060013938010702016650, -397);
  (169019065389433526196660979283196644222400608193194977703, -398);
  (194699805350235454688283365995811370242341647100237813797, -399);
  (224046014406775211674800189155978625686470513321873520421, -400);
  (257544201323647336839741935725747176577246711911235870537, -401);
  (295740047448066379336845423043145906435426412231722292452, -402);
  (339244851510700703196938563145150215982952991981500513277, -403);
  (388742577587925613685537856091904844856050049076007236160, -404);
  (444997550427631565615745531239934441098808259644634949880, -405);
  (508862844119911380512041683237709415335329044111273607024, -406);
  (581289411762536748899779567608070978798736678061916423034, -407);
  (663336005299552576263282718383176101845110085758621162254, -408);
  (756179936067377969206428513154036671004618876507972879807, -409);
  (861128727731683689475391516273930906730701468375690316162, -410);
  (979632714202587280159434861819731611886816036974651997946, -411);
  (111329863573538384166169096225067859142658132378949192758, -411);
  (126390428671666435480641739783891276445891787752035014722, -412);
  (143341426855648407247774525948640699723033396969653113287, -413);
  (162399690060929261026432104213931642194381577433629163087, -414);
  (183804234108074992698697712941070880636158418466239597963, -415);
  (207818196839378707910274283342108168188715626942059852839, -416);
  (234730907143344268094717391163829349129344902306595355354, -417);
  (264860089441326465387795099189403670671183913570864841566, -418);
  (298554207875302944286386036947773476551308132260068612028, -419);
  (336194954027477490152671189654079369424357761662651919844, -420);
  (378199881515875694773710828291239950474247966774192757168, -421);
  (425025190240113301359024997426177679702866185534886367682, -422);
  (477168662393094505408753728061366432404752483760854249177, -423);
  (535172751602783261249300745749311915332520535182432537993, -424);
  (599627825718965578725008174205392890883947693285700225666, -425);
  (671175562809077500278224425604150480200466472437580926838, -426);
  (750512498871204439077880884515747908747301441614458827315, -427);
  (838393724608347008090587848587554760722730111226936063647, -428);
  (935636727333767403287299735856690597229213635090993989398, -429);
  (104312537269123453981601462042622096714669616453291238226, -429);
  (116181401937571548158776317112812019054525382860501466935, -430);
  (129273175842993986566782743524011511572880210974900160975, -431);
  (143698676697180214824936106072362175667645161651462011826, -432);
  (159577076437945553928556205616211407340547274567386417310, -433);
  (177036355702916147687453826808810698947275685846992105628, -434);
  (196213765565082834963876381729071175705169012506158504220, -435)].

(** ballvol.const:514-641 *)
Definition pre_ball_vol_4 : list (Z * Z) := [
  (217256294724449556955318461692279052159292236556657233335, -436);
  (240321140129611766036064587352389414876682392077217468069, -437);
  (265576178775280031611619119736247731813322233619229022517, -438);
  (293200438187771485603624811330564412908179387170646069855, -439);
  (323384562871654775142277799250279081257170161410399437626, -440);
  (356331273748553643935270722106409258568410134478884208400, -441);
  (392255817375265348318241907461898487181408468455688780857, -442);
  (431386401484681954941465381758808462603851564917994044726, -443);
  (473964613151535842706786019890145956691656387995549851257, -444);
  (520245815647913207081067689165471431038195355521056593389, -445);
  (570499519823139196636452450136504109648727494054505277442, -446);
  (625009725621535002124348722873267800726782768764531620648, -447);
  (684075229142320121712699851699210342828721073534810021880, -448);
  (748009890451347326248063484063233690197157898718611742193, -449);
  (817142857177287958362968614729285284912308619058670771695, -450);
  (891818738768295555895065481770803395731785373302510018137, -451);
  (972397726152099053212000775905907117727066197110941092535, -452);
  (105925565143598950842809518439064100394859730214537067924, -452);
  (115278398220635998116227729963292079471969532271289108454, -453);
  (125338974494341821487121455002426840404881810418837740476, -454);
  (136149537205845392661878950544253786891369204973411167360, -455);
  (147753846709156749015828450260730662947767661158226528784, -456);
  (160197148267990303634563570560097356493666356149366369806, -457);
  (173526130602287585151176890778755694134102819266091296640, -458);
  (187788874673415376060836699153997222682261908679758892711, -459);
  (203034792218253140048366486248297536319159180403137112198, -460);
  (219314553568734620219645272335329737539267631231842759985, -461);
  (236680004325044224450137901008227880323955782250956841464, -462);
  (255184070487726612659287299304582988949755654154155950367, -463);
  (274880651696546922611037512100362824037907738777007437256, -464);
  (295824502272096639239863288405926110001761758596858717331, -465);
  (318071099809888231049511359972951295796372712722579196002, -466);
  (341676501135983786747649078703975056496605727832439264642, -467);
  (366697185497970916489746796946541156241543453791516193006, -468);
  (393189884935190955489051296356292559730959193476078240100, -469);
  (421211401847341534998848271634992545812022407067123230858, -470);
  (450818413860661322074136484305456569295772481443809694188, -471);
  (482067266175543326304938982614083157381590627389454733979, -472);
  (515013751668238773606852937677793996591823531707162805361, -473);
  (549712879111870176507181397900592721280338448667257991983, -474);
  (586218629977774294587762917394935848880036675583846225075, -475);
  (624583704376689132296849107864450543778998974242181131152, -476);
  (664859256799873307361335445684567307141498054302200161311, -477);
  (707094622422236312859116376759426188844587115201026187219, -478);
  (751337034832248837383829418827380466497840623050775053165, -479);
  (797631336156030984404287339273938455156778060677683802625, -480);
  (846019680644778329011993612757592780795706817238984691038, -481);
  (896541232894739810767662802952784323959483724153489197124, -482);
  (949231861966435210174396795913192290022939383436892764883, -483);
  (100412383276379695865189993837219972108536964460704899918, -483);
  (106124549612352794405889841025282811969667096024879786504, -484);
  (112062097914926133457471942292026158967652224673970553174, -485);
  (118226987740316694590717037086892509941459556812105844826, -486);
  (124620695063855584971983526639905212668825241440559961936, -487);
  (131244182381989214696991556807544361490548501194920040746, -488);
  (138097869523055560819110264671940630953184784050518807464, -489);
  (145181605351287425272451943823867942339880506206546695805, -490);
  (152494640551856996017893142333743722573674660325489160923, -491);
  (160035601687009539828969402499096109861732036839668574089, -492);
  (167802466714371317721800291953072383399695419061163666336, -493);
  (175792542158297724355209854089240217094706853306092460803, -494);
  (184002442123600258825209590460690231210149401416895670716, -495);
  (192428069338112246187480703747341204759633823395802838422, -496);
  (201064598406289978177144405496471338163680222650679522260, -497);
  (209906461450375270728456927428753860164269982432248449492, -498);
  (218947336308555509553928529874604869691098449501945988855, -499);
  (228180137451047780721957468502706125005381222375192999817, -500);
  (237597009765116334504830961745604966467615688466749420084, -501);
  (247189325348731364582124547137528446442559407138540999236, -502);
  (256947683439928344925671466181080379743688453886382672987, -503);
  (266861913594979969262093178322053664654356882644294923012, -504);
  (276921082213308631765505582120203045403640935023334915785, -505);
  (287113502490720288136122984797341426842106958517909791920, -506);
  (297426747865116430172021185168626228543852729818038972018, -507);
  (307847669000437426732710299936310680108425661655093100110, -508);
  (318362414335316353269774584325179940140040802443800829000, -509);
  (328956454202896784783215093029756421711525408094587816238, -510);
  (339614608507619603809401859187968818181606354178097697349, -511);
  (350321077923650102654164564265129782113187270867203292458, -512);
  (361059478558142619840040425869237434836884300812766922782, -513);
  (371812880000877250165990822465010145606760619704060588192, -514);
  (382563846660108710607785269099602083738092617221989883996, -515);
  (393294482262902129721939193026242644442765457005224399898, -516);
  (403986477376957876795668235363214150225363361091895073385, -517);
  (414621159790112272334168726841966699025004809685797433487, -518);
  (425179547563507561145400976174309794872701981298352511169, -519);
  (435642404555015549624718089209753373512738251916014598488, -520);
  (445990298191034199429015896827945971533976706531866901580, -521);
  (456203659247409843198642300784807417629825829574535054867, -522);
  (466262843384117901394656638938366896225159004435102051260, -523);
  (476148194163602693109227498548995946649594068154098043700, -524);
  (485840107269463724139817892054565737933315973408100440263, -525);
  (495319095630602876194322377997278211771841683253293020394, -526);
  (504565855146123747850963865712579853836141176199388875817, -527);
  (513561330698297772705317758243559849977897411743974551616, -528);
  (522286782134864625173547928236228421776018554378902701433, -529);
  (530723849897885079841784144518499768670322002608420276494, -530);
  (538854619974365705824752678224009194497875986294867977968, -531);
  (546661687843963247616361625877660360252925154562537224309, -532);
  (554128221101272393168392952722058284826722403150633910711, -533);
  (561238020434507096840041562675312686647919424238611683839, -534);
  (567975578648788906158699451143991940973742242236015650899, -535);
  (574326137430725000889076629867615694074197896267780317588, -536);
  (580275741561446195393508834086869625625163928544778135705, -537);
  (585811290297716763566737043712604729196900086571683745029, -538);
  (590920585655043379033999046000918558403884141691885889846, -539);
  (595592377342804111692190693530107390533865395940984622983, -540);
  (599816404119180109162273190524514679054246279462195401330, -541);
  (603583431352978521531308008326828404214686618788327393437, -542);
  (606885284600149058549566603918498595947422433541134377577, -543);
  (609714879024770610794092396260650600103970798023465886537, -544);
  (612066244517360886813428632121692976184651970809585234758, -545);
  (613934546387374637474333802279161149791836774641796490512, -546);
  (615316101531531208150462206469211313374063268883015772261, -547);
  (616208390004970702033804854542381056077067600363085206888, -548);
  (616610061947996736065772331658646932417979839902580506053, -549);
  (616520939847136984999533990277338856113520537690129344359, -550);
  (615942016135254009347272060321447638172007528919519415061, -551);
  (614875446161282659317962753385724476772768725615871969024, -552);
  (613324536585673498084248632859668666810160900584490591643, -553);
  (611293729282605074750708672007653369919164524277756326402, -554);
  (608788580854317924581279448820680725133716431736511020817, -555);
  (605815737886353303401525625781682029157280707801517930953, -556);
  (602382908094891667348630110716076069241734190881010316114, -557);
  (598498827538631230467968883142092096101439854949211682616, -558);
  (594173224087587835206658517995521225176378629919885812984, -559);
  (589416777359707996559443636701795539552381506081522442416, -560);
  (584241075353154279067236767573244177979153775571184564638, -561)].

(** ballvol.const:642-769 *)
Definition pre_ball_vol_5 : list (Z * Z) := [
  (578658568017446690668654515279576858006697777167729438870, -562);
  (572682518020240343016716644473145716939240523685668946015, -563);
  (566326948978317822435817559018912432539597882728903021209, -564);
  (559606591431319267132073264568465476917367316130219631024, -565);
  (552536826844784140537240150145163490089037972632353157231, -566);
  (545133629935211642649545699399976693442068829863624174016, -567);
  (537413509614052480420238760745870036871965175846634553523, -568);
  (529393448849829332779678174605548857119956906218710490198, -569);
  (521090843747967590207868947624071363329638980967967119935, -570);
  (512523442146436921042396799764141414815894133613133399245, -571);
  (503709282022006714260461821703972627614572473324728668427, -572);
  (494666629996866249464302048773815202549344857142657004178, -573);
  (485413920228627486664045853109682627264239624684585755424, -574);
  (475969693958399833386208398352940949683300416135186628713, -575);
  (466352539981797565866700726417561012682416645676130283922, -576);
  (456581036296516369896895975687154994415732140687256606288, -577);
  (446673693167608402890626324327555137105002845902781541479, -578);
  (436648897837914936127936340340642496674887265931934906989, -579);
  (426524861096407288793814130201132634322968363718480297225, -580);
  (416319565901570171686026357394333146987693506765426932792, -581);
  (406050718240569740085204513061342525024461726327605569273, -582);
  (395735700387916683068447195307553110968161101835488951280, -583);
  (385391526709798474343500320324929522617220922576921860668, -584);
  (375034802142350088027461521806869873904212254190560294542, -585);
  (364681683453993212868187943659859098751382767967436121899, -586);
  (354347843383731935997807441866664374682666239779791417994, -587);
  (344048437729076135781052117154883855055826817432751419987, -588);
  (333798075439196063551341200495963469693824669528803157566, -589);
  (323610791751111088300487623346622730810286540144795165032, -590);
  (313500024389294454225798443398055157218602200782651780936, -591);
  (303478592832139419838804198283917144292786975388843164953, -592);
  (293558680632378081636987437696903946280975275979437636353, -593);
  (283751820762862287413042611746798437212913409287934401818, -594);
  (274068883944187607761659757779978101892734114171126424873, -595);
  (264520069896538849458453746721230923960058833080469878159, -596);
  (255114901444922496361766176683892864525949309665866347413, -597);
  (245862221394681972855146672348196215192241236130020436961, -598);
  (236770192082910677290346466674080620982057638619114426946, -599);
  (227846297501120995564974367481889791865863010295248113725, -600);
  (219097347875321475402241067180154078626213114284109560248, -601);
  (210529486581516524884081793988854033309222778868627697658, -602);
  (202148199267582156087742428177703824532335115068470695446, -603);
  (193958325046487761834813283507478909066881273222061266911, -604);
  (185964069620919977667516799655191469411161369745682243162, -605);
  (178169020195505013067433118242269532324607892159347341165, -606);
  (170576162029997970160761964103965639169309845678844770677, -607);
  (163187896484982523642023291790061353822589801658876012727, -608);
  (156006060410766770209654760982184074875064510262491116118, -609);
  (149031946730230447399117336358968037468548128684670279432, -610);
  (142266326067329569514268673971958904468426246795985232768, -611);
  (135709469274747066968807175275357191544655050427236753783, -612);
  (129361170716738835337514307396196618522660843963248567885, -613);
  (123220772166507269189625223781969873242087844690191915803, -614);
  (117287187181380032618890618059949683391412310475569012756, -615);
  (111558925823619858161144593437530215536325083122163318799, -616);
  (106034119599779706139363303179147670929945018556102666209, -617);
  (100710546497084143794505895608633830217078091447009827524, -618);
  (955856560012996935472631472512915234405994525859306546653, -620);
  (906565939868919287774994687964547103994512529512573042778, -621);
  (859202273768939196860704324501844468147025409913471499046, -622);
  (813731684767692308308324561345095951310700585915073986242, -623);
  (770117988935847558345779951457866022417134612634384623041, -624);
  (728322929589580516565482451478267058428042905240865839298, -625);
  (688306405814567385581764673311967937335674460221979588661, -626);
  (650026694613529089625938338396813637841184194028433508995, -627);
  (613440666078252437746679761328310099550516022303653435142, -628);
  (578503991058107368746149414088987879939533095034771759189, -629);
  (545171340866949742165567905281045175619891374320126238727, -630);
  (513396578638566539007850298353245353521381857689465611853, -631);
  (483132942007138598351066959104184935010870831380635361452, -632);
  (454333216853254989332276542945288653114878627973026787048, -633);
  (426949901917538744474487939615465135859628677808294218899, -634);
  (400935364142697840710928385016951292440587704185588183849, -635);
  (376241984660595370770588720684739917829708351592847119303, -636);
  (352822295393570909470122649313807660897279722744790295844, -637);
  (330629106288607019299937681912620084141178699827511425814, -638);
  (309615623248919082912810896538956411090824437798459251157, -639);
  (289735556870082767298432493618135703627697253003269700209, -640);
  (270943222126860552140666918527113547360499512975643875315, -641);
  (253193629192433871941821329431681066359338926692144979540, -642);
  (236442565603803506938429731818850530025510885525000908465, -643);
  (220646670015724955839191120013622626117965991388251656414, -644);
  (205763497810756740368778020170100432506568700310388103808, -645);
  (191751578854897048353450878739937116881138082509813776719, -646);
  (178570467706964883879554913997042352184801115819845769136, -647);
  (166180786605458897890135638439012596476694710843459917712, -648);
  (154544261569227077291373981838161228478102052006854047786, -649);
  (143623751958042032354176174995103006344292794000350836299, -650);
  (133383273846248131160432945255466525058117183939342132099, -651);
  (123788017567184507790550670551356087132587706472206857696, -652);
  (114804359788254447536198573596550672458985567358648225782, -653);
  (106399870476473630460748451457820417706869791482921670257, -654);
  (985433151122567331211585936524465597333385262604915186781, -656);
  (912046525052646905822781777270975928330475071885015237043, -657);
  (843550285605040337798681856905398205349078702737552220409, -658);
  (779667663357141450659982362071115737974278537548032941873, -659);
  (720133527225643108627734131192391707609439709178595922696, -660);
  (664694220744726082108866508008180113662938637440904925506, -661);
  (613107370931107248892387174989150812454156357378266033502, -662);
  (565141672740250014909641385179426078780680142103042471185, -663);
  (520576651994302401108686709250817050989910173848899699708, -664);
  (479202409532582067902547173893743751825174760253753265477, -665);
  (440819349200989436827781491778205267133609582285165625997, -666);
  (405237892158839119687621208571015238690531502730779341771, -667);
  (372278179841414544787906556112811195338186463094543625204, -668);
  (341769767775146807029196136396438503911728201669864128503, -669);
  (313551312300688416174443144088006052256629504187265437437, -670);
  (287470252118203711674447323027655096928494782336478164171, -671);
  (263382486429754464973762470158351628932415260205765828070, -672);
  (241152051316463145290318284043649426562783184283965790869, -673);
  (220650795853848009968337633087165743600316072916788655630, -674);
  (201758059337925284819489170507956923461773380183479281555, -675);
  (184360350867869712061489599469752896150236956102530911669, -676);
  (168351032408647983600183992136155369358011520166377462121, -677);
  (153630006339452559563944640328135140487050453211076835637, -678);
  (140103408381262436965411508292718685791810813789230440085, -679);
  (127683306689676593685744847595856997992829501359538669471, -680);
  (116287407797480776164927724085112723523041930631378987662, -681);
  (105838769995340498316444712505989770237617862639364154580, -682);
  (962655246486340039909819998037146177492896542103635619440, -684);
  (875006058637740906986200794570762158316182714081496051673, -685);
  (794814888384009852717122203274543746168437063861282410173, -686);
  (721499371565062120447189404330956539341059181821864560984, -687);
  (654517592217823549927667839740842084475336651367783932859, -688);
  (593365739601688931934453228568107013231294319563238621918, -689);
  (537575858655371108613872405976029467301546000290709966573, -690);
  (486713694105624072091163712576383120602667564761960742300, -691);
  (440376627978862826702866787679910740652939266416327198435, -692)].

(** ballvol.const:770-897 *)
Definition pre_ball_vol_6 : list (Z * Z) := [
  (398191709844733967893805903976315820715195915776899989158, -693);
  (359813778744093849993095123385486411810488571729847947788, -694);
  (324923675420409034377408154843924922499387631775805022100, -695);
  (293226543181019076547276754726338912477783483403144183260, -696);
  (264450215460661009179864697568387268195013237481364548053, -697);
  (238343687941790378380260967944930784420186958048489282969, -698);
  (214675672902183613941011770033376289884219199323085124852, -699);
  (193233233307723055474538356147950020242027266227245716987, -700);
  (173820494044831311740772413061716988379567453229348437356, -701);
  (156257427590462109057578027376113587818620597268073701535, -702);
  (140378711345653072926231601898037106818885570783067935500, -703);
  (126032653809251560704131587922827398907506237658323927641, -704);
  (113080186739463039017355835016019532366381230919408977659, -705);
  (101393920440350927933183864038368216542613666622571978238, -706);
  (908572593164345365946306391589250369904592963844314114326, -708);
  (813635748592782755130424235503454289218040604578420818900, -709);
  (728154332637279437579671829156143115326283066689749338846, -710);
  (651238749166144778454612309578558933741451264169483161968, -711);
  (582077430557978548843515273188265506120088657480154506949, -712);
  (519930589609495939824748247225879913782865450215238988597, -713);
  (464124411081565591975429902487940081792331470327758890680, -714);
  (414045657970545533538234578961720491703466330719935895049, -715);
  (369136668406464730873156981918627064968332879048004172506, -716);
  (328890719931989397737427785270372563764426823996704828169, -717);
  (292847738797060890734720207128732646576627697313869161942, -718);
  (260590332805093587494273955963495203494812034149535464655, -719);
  (231740127160007347246199902019819628776767561837212391460, -720);
  (205954383682264480942540352881591531323195461403592304926, -721);
  (182922884680362712968373595040663277617615831571152478237, -722);
  (162365063676490761018691054460309455769110662874683835103, -723);
  (144027366086536449368709295559597994103185137788672331702, -724);
  (127680823841227123994405357990816683033495561373510984243, -725);
  (113118828803337659556216659908035862782538619742970632780, -726);
  (100155090682619639907125971896052907090696182963303510816, -727);
  (886217659728795744416576958479997018630358575136336245452, -729);
  (783677452324128046844220456795553437299099823395966012095, -730);
  (692570867981473598684332170280818742299179159129090300932, -731);
  (611675857641104623382222140819671797964996985109947514307, -732);
  (539894677652829779859018754260317816461924497613789269416, -733);
  (476241977879437541657864439748167493345828792401077694661, -734);
  (419833948768900879065917849055249144718686207650027059549, -735);
  (369878442283588083824498493152489760246149544562992334758, -736);
  (325665987451845091560419402205655702522610751145241521093, -737);
  (286561626880235923781343514588096315005976653748488067704, -738);
  (251997505838123726191301526957524120070604084574163055801, -739);
  (221466150506196457317332051209848065133567879807228464485, -740);
  (194514376674201604560283151005252627629651138010722606336, -741);
  (170737774588730861202371351759428423550564992632243437884, -742);
  (149775719798350392076866830278738341581994928062487114680, -743);
  (131306863730288116315869028027788913459138904695229384763, -744);
  (115045061370322968237480874280024155898400313022748199489, -745);
  (100735696815870383439072821548525249330177617039073958182, -746);
  (881523706421447679431118563001609294954299341050447364298, -748);
  (770939159734438789930102889494693937892782617113263786012, -749);
  (673817128968093837692603266807042481762055615312925119722, -750);
  (588572734042867809769153194740820509526571799372617029846, -751);
  (513800714133283946246444076437585053845063374132026242470, -752);
  (448255946029656416267376586652755455617654332183679792661, -753);
  (390835968263998618741831486891003146572437416734766403180, -754);
  (340565317285299018991261648715028006022931477382737225980, -755);
  (296581499192471409775746995608959013100357469260802071311, -756);
  (258122436393479475117203675664513070847575369859645961344, -757);
  (224515243145473584756836796431446673859383272971369498857, -758);
  (195166197328629074323677814768128223954308442457715365759, -759);
  (169551788097294710677078830161762938451251025549190751246, -760);
  (147210730313727978395761970827097997149114775533717712878, -761);
  (127736846975893143987507632535961274934803545990321195404, -762);
  (110772730271424214451940834597324906917431010114776625472, -763);
  (960041004909544253380727833840132532295913579759203323151, -765);
  (831547898778470765325318816207264577421052291649439099020, -766);
  (719822856364865596501621860498539963750945265626605715543, -767);
  (622737728226572767360827031823311310641172841399317172425, -768);
  (538426237486162547351624288274393848350648138347396767857, -769);
  (465252859003519197801253803273913936700193640205650206079, -770);
  (401785252300836485084049310406908294167947318462960114382, -771);
  (346769860950677058925874709463783861858375548113281596607, -772);
  (299110331030575704363846917105826384922850328562434151911, -773);
  (257848437313373056328642939980053350021660715463443893643, -774);
  (222147238434625957916292683404039200535237234692679866157, -775);
  (191276211665478422027344982929793153843805371277161003001, -776);
  (164598144406009686170944181177754799291272552506420139743, -777);
  (141557583362721630315709994940186139757280841983037254557, -778);
  (121670663825983988648384993773361142931509161974237899873, -779);
  (104516160740834550741354121907190908405414351040849273849, -780);
  (897276205711513389852648801674283098523900783503137658218, -782);
  (769864484794409816207767435806424161663957756390945183764, -783);
  (660158392530261016916691499662131551552727186065835221346, -784);
  (565754528582411453037116242707436836023433252875606483860, -785);
  (484567466396896039052921097845591304203008498469552726684, -786);
  (414788861313806422747254495762137961936762589907093256882, -787);
  (354851653286971467028746256243318733341379155997217527942, -788);
  (303398751919518009536551559052322293959376530416866791931, -789);
  (259255662111753945861415579675992934055619113305759266257, -790);
  (221406571460782801045609983783780108372367993093745107928, -791);
  (188973476448223642182981701979690485148817530735395536067, -792);
  (161197974126929043845287324797892099480554035692089818372, -793);
  (137425390123394261074281964430134488825704620096496183430, -794);
  (117090952899587941916903678185600632344165679985144629673, -795);
  (997077588980061754968122343946717463072967650743576874940, -797);
  (848563039056918056191142209057375197368059970415205834466, -798);
  (721753831474374514538528685255452401204832814106523038505, -799);
  (613541866423254903797057714529277146564769255049175552868, -800);
  (521254375783949577536270275050778018768170174459555900916, -801);
  (442594401888649331445521100357673727021540714682722547491, -802);
  (375589201287703994143770604322842693749114329753014119489, -803);
  (318545549024822279353483192391813354230771591535714521121, -804);
  (270011047032748050022859799395100628420193018629535616347, -805);
  (228740652948596342492531897650516173625713880588915117001, -806);
  (193667744690906258950234341692224193973928755356604647531, -807);
  (163879123119872918291407560089928884989337667856291510098, -808);
  (138593431425570566140496062128751745434277116968590949202, -809);
  (117142536807765642124970058339893402921099160187590520334, -810);
  (989554786369030171977660338126491141284342930834320288745, -812);
  (835446386057090784997082279896286440465914927971074365040, -813);
  (704938332694231849684613093139291458201893225106955668620, -814);
  (594480686048719972433830053566509682484241865196125994289, -815);
  (501047304802270664390038050303912038548905222874772237034, -816);
  (422060148246707108357209391891539527818563910103268461693, -817);
  (355324273559318160155187957202037274754393301657555009615, -818);
  (298972054364120429474257647882069642683602703862834061271, -819);
  (251415344021640528297286552479942385326568641079441900220, -820);
  (211304479104379982946406420939029065574865964208403029445, -821);
  (177493168040030657675397075894320247868108129621371802223, -822);
  (149008439781130892834417493605698826849458491930464759136, -823);
  (125024940084515469603387746069049104202280792486894905402, -824);
  (104842960747878591537898166349501112939260700469396312822, -825);
  (878696718758429222979624386385334015894962754386068851636, -827);
  (736031006181314944940674790331216888156448313154942746129, -828)].

(** ballvol.const:898-1025 *)
Definition pre_ball_vol_7 : list (Z * Z) := [
  (616184633121637926811678409603967135908369243621410917575, -829);
  (515565128613940407502635244936356513150117034752058246394, -830);
  (431136106162552270925934795171636619678158831268779998350, -831);
  (360332729811041620563677446921872578525370647088204709456, -832);
  (300989783070574088520259552153539541128285051613684483044, -833);
  (251280500959450441971010367299154350199623075909967227547, -834);
  (209664587871419307292412739791181085757414137257625980811, -835);
  (174844069945641749687069469076526376393366979580113377883, -836);
  (145725824994420920518542708221685935885685462144192805462, -837);
  (121389800146954271917390381602952020939567559195698811736, -838);
  (101062070914080493629503456461403711602181276607131674407, -839);
  (840920186025148278561506217165160296648871848365296455331, -841);
  (699330087093052861513696509684047877897345075244525918487, -842);
  (581260435351368128706007932460618338733187716168075601961, -843);
  (482859398691394539317149341915243120504458534047509278038, -844);
  (400896490345173010142094904130623417394998439605548494790, -845);
  (332663934132822391999868040219953002771212527348650815850, -846);
  (275893421449797809858770486923458549497658288345224920765, -847);
  (228685901878764484002755409357395837277208394075218490967, -848);
  (189452403497363384108244699448737650508983478688296606425, -849);
  (156864181074646899196554417817926321681092817195036861826, -850);
  (129810747880533491598455808116606424764989691572196756614, -851);
  (107364566203810408810443017813295917304797434639793536827, -852);
  (887513584109860370633000134248313669278783960159211994604, -854);
  (733251592264664730698470585958001122059699940024313457754, -855);
  (605473649468118218499073260387651815836830665222048925303, -856);
  (499691500106657089084643191567400719613818094821414140946, -857);
  (412167187239705702599292316722531048619808447198867614152, -858);
  (339789425497042704662087260148670504562456282700370808243, -859);
  (279970034050384476825575021772827677767900569396899561202, -860);
  (230557227410152427614022481587352808570045128269118922976, -861);
  (189763064120382338139276817778569540373060565171557338098, -862);
  (156102778418915124570588206469022619058927514489445205980, -863);
  (128344079260125303159842473300686274731430926826938608646, -864);
  (105464804706627758021128619063708940044043791277563436000, -865);
  (866175760548562402600847013207211239597741135430796998186, -867);
  (711003123773871274070368471993416247240843110318270454039, -868);
  (583316485757109432071731795995426676832210061589450516422, -869);
  (478304537543338000624168352430736566309037047922665492216, -870);
  (391987761790877059571527089891130284040153677826847469037, -871);
  (321076500283079938894371586417751893423364322671840233071, -872);
  (262852907735181477959555482974631064359821495601582390922, -873);
  (215072830390116227108412850980346239563066642854616980294, -874);
  (175884294763697948556310122556297927888475240339163966357, -875);
  (143759834880926120008719728046050179469603514645661761461, -876);
  (117440341830277410010430478414577108146631959104143687787, -877);
  (958885013042885789873601891111174176103233458188568921645, -879);
  (782502046933348046182134043522114111880881413637602640002, -880);
  (638225871316288785707810836704593432330361553906253468818, -881);
  (520275699907890332051251580898491176042696293807770717488, -882);
  (423899726989048116685037249634864230921688328758046131196, -883);
  (345194153468197705141295762774706568026809934776091210004, -884);
  (280953643073314887680485405406573242001183203095746014674, -885);
  (228547822254549537891619418508184205375808640431260062755, -886);
  (185819347595455779052341297699755166709316230248401391404, -887);
  (150999823215318335288317990614290828755688061121542079150, -888);
  (122640482626204219841295418690227142379092555445050978721, -889);
  (995550756152364310470975188455377657594683797361186551605, -891);
  (807728384174402200724824007627790687280558611267843426299, -892);
  (654997893571524894425144075367081848085985062651943422213, -893);
  (530868945150262795808484769913521880625940831913253494075, -894);
  (430038990712871863567062231816759564231084290849751606622, -895);
  (348178283528815969664007483084733459361641502842364199825, -896);
  (281753354323405123693525004914938959736024358291560566433, -897);
  (227882153682006741977154500734684706364476635352106011020, -898);
  (184215248296918115677887223995022779563710574601121927297, -899);
  (148838440725906992162130524451344755789810305048136400638, -900);
  (120192994959255996391172150374996557093901736809080929978, -901);
  (970103219826284853322283642358930464343749082326089625664, -903);
  (782585347102494690873046026307176261008174984883571915050, -904);
  (630987401372683385330610995635397931154160558710947498542, -905);
  (508493149382464468471408427357550109350293899634432618618, -906);
  (409567228235565359738540951373951208808368646963028894769, -907);
  (329716892157004681629242366611603207187561886820641023036, -908);
  (265297607294017787497963905609932902018724641969431025815, -909);
  (213354514143131621811359386812468536874257934434664661697, -910);
  (171493212775686466464454323015603302547597119182643328537, -911);
  (137774506524621159985949157348835001840950376530782376320, -912);
  (110628709937701822877535087420281790822179119553713688976, -913);
  (887859235999402814771167918888789058668039317448663185382, -915);
  (712193324623770900733346570565858663911457293821956730487, -916);
  (570991208441672542348347423381625242196483607896894704861, -917);
  (457550371487470236858978404654225631836689427508451436924, -918);
  (366460017508624472325620412537451575005096828948091839207, -919);
  (293354466471901488373819786216085039596734633293131955432, -920);
  (234713169997855585502071260854293964982379334909830075264, -921);
  (187698622559242164483279200740572699685577519222293231579, -922);
  (150025060135510757642154340443543012682088309902037137667, -923);
  (119852157260373703179406562436733213062063195495498997561, -924);
  (956990105129111769906459673017052824437917715270142896123, -926);
  (763745754089408977505387871131331148822631023650617007152, -927);
  (609214404018589958669658477169227298921700335646326488417, -928);
  (485704058756616200508027325070435628562084450536380004387, -929);
  (387038118528996243850431976305327240034307934852977799142, -930);
  (308259455112834493011173374505284310539442022545467976028, -931);
  (245391747695239199289771673824794769188448973218854498262, -932);
  (195247104754450296686816658969246939061815328826654041630, -933);
  (155271079921636162161436564240025178105478798708310244074, -934);
  (123417881273894938297496111526739920398331975701111896098, -935);
  (980499465320132293169968695922653711867172307893143155474, -937);
  (778571705083706125963916945679734826291279015480587494777, -938);
  (617919742647632469442902077646365233625357738413257469154, -939);
  (490171372541853756043293620137869059166214191972760741567, -940);
  (388639063865845409403847547077602049145169944666174476645, -941);
  (307983756595502691239840869285131867784383199133958795298, -942);
  (243945180407383498079406916450004121983071914617250150636, -943);
  (193125650128826004957517678939289000954715520195144805617, -944);
  (152816826848748307573186216421762428525238532266908461450, -945);
  (120860980809655873169235623117417368072165933838135310936, -946);
  (955399443926231157247391784432694737345184102296921827859, -948);
  (754862762260977876505504555431440208678954620379942626866, -949);
  (596122318626101570932821106629022286513851807788020440718, -950);
  (470530021505473555272617664777007800449583063298018921861, -951);
  (371213775388835413696066867854117483271937829532149486204, -952);
  (292715576010899632813436742913454113109193574863232151305, -953);
  (230702763535686830591949513690591189752645098837417026693, -954);
  (181737767428289921322335401852074360049470667271523841435, -955);
  (143094591724891802630704522128361074373075475761771139383, -956);
  (112612630183930182955167409142491583824574044396138970646, -957);
  (885802794347489471969381490542183866969714942411116704581, -959);
  (696423251352872577332433006587508094369019019850611726459, -960);
  (547262841937341858967811808491761221618517319720333212178, -961);
  (429838540322063364272856597111340216019875563050411507433, -962);
  (337443949717963767285404184866530477638436615017933687005, -963);
  (264779921667755761512289067416029699940805192256751142472, -964);
  (207661397342268080965291045827776718677781482358477721543, -965);
  (162784864330626695664528026020892685897172898282916790053, -966);
  (127543992243335370001787205231431258576347114820432403297, -967)].

(** ballvol.const:1026-1153 *)
Definition pre_ball_vol_8 : list (Z * Z) := [
  (998835417767007816975801877042319993751971499085565811479, -969);
  (781836622519367747988882569182792383714397860646614131783, -970);
  (611683043002363313711644975177457232259407495470432433264, -971);
  (478327592914177608730559331458176372755090997095718701439, -972);
  (373863609770753729735075141540385781223447230453268417932, -973);
  (292072002314571353779577767959504028465301229193497917329, -974);
  (228063528135992458399628447832362570910961781581551240601, -975);
  (177996364071914345681389914627245287242634425925306526328, -976);
  (138853237314690507559345745791189309604789788430826249864, -977);
  (108265647576770633889352739884803467071802643038538731098, -978);
  (843753017940022916874535449470553470180025451951417687888, -980);
  (657249397223814925200970384116514016845099258393497997410, -981);
  (511723606680423362011224951284641683334924894013584270484, -982);
  (398227556006684053251565517347748525015244140375868557873, -983);
  (309754744396086874028102982095603173125082214076772296648, -984);
  (240821706334478644945067347696649874649521829484038127925, -985);
  (187139082578717442158261780572221865560689775389565669182, -986);
  (145353257146081976102964650940196236959615759613110380542, -987);
  (112843525341426559693738480134746523476913970268531175926, -988);
  (875629386050775171839072616046778769908950085380021587750, -990);
  (679134847160535143148613172070537048112841925459241734417, -991);
  (526482458657312202123710218483542146441860041168581314711, -992);
  (407947427655136569430904550630897923009059652211543769454, -993);
  (315949078197078138147921669812207116630816085496993626205, -994);
  (244581038506150896701332452319408981744791703930662075381, -995);
  (189243718393214069569413043435640087911193632134178634546, -996);
  (146356951195863999076831845131373423840074225114325002368, -997);
  (113135428247790095441549976829706605076557886913299257510, -998);
  (874132932849289436700192742342277260417000399537517077453, -1000);
  (675072042248798742519400459959468858036875965881089864989, -1001);
  (521094800778031829965818763450939797986606472205285021258, -1002);
  (402047652809987612050824003889615408163766452915320240728, -1003);
  (310050681429564710401076295888433759615831321851120665203, -1004);
  (238991476340752483293659419489611750743130425040024896530, -1005);
  (184130991119022651544798924419325109199920515590371075558, -1006);
  (141796764181810553881557374394781223119825065778896122035, -1007);
  (109144258301458306450404528125645179665141545591302511827, -1008);
  (839712860803733016140386581700567145512124205765988341979, -1010);
  (645737853222915669102888357903875273243774651058845659204, -1011);
  (496337865404680392480213260326016963871134908357693108087, -1012);
  (381324303727435349049336781894336629530113087585983452155, -1013);
  (292824674488973429077494175558676990406916545832293948218, -1014);
  (224759030248659268875385309282653167446681671559038860178, -1015);
  (172434085504101493415312708852916260674920506335530603091, -1016);
  (132228711284111250659801878972303719817939203774580355547, -1017);
  (101350356641376896312569252501819895793973061389071992365, -1018);
  (776464949465064860847612778035567388099744000612253876174, -1020);
  (594587368558833180807417201794865686968483992844005210360, -1021);
  (455100108397279444795720335717025575458728878578181555861, -1022);
  (348173589744961254189841195921739012653545908207861067925, -1023);
  (266245653107786159350928413509869095614780103012912758179, -1024);
  (203501319389164064925640012682012066076583894731998491727, -1025);
  (155471261682832249309480800052781751196396324166378144670, -1026);
  (118722051994211323375294605391720881446993854438960424647, -1027);
  (906173234781302615172393166102266341048600121686455008229, -1029);
  (691337027551658490394492899876610902153692059009512722962, -1030);
  (527190218012710963767613044720599151308473682939115715546, -1031);
  (401831512841978685612810423801272796658972193739302302235, -1032);
  (306139910527381561987509451240860486583967357529313670266, -1033);
  (233128518693487146441221775072944128253544587476072566579, -1034);
  (177447766399162088509267902740909974314232333651003891210, -1035);
  (135003657450641475065052185281294360674144042939494468542, -1036);
  (102664567093098595841505747574693238803540677600529739226, -1037);
  (780361542694918514321188320027772456300056029860787739602, -1039);
  (592886488536130483826277132344522996970047226551316713640, -1040);
  (450243909949376269322839458113846662299293028531040173150, -1041);
  (341762905834450769752740707581454741239572201104683398611, -1042);
  (259300267611458277430670419518462095436418131945337612530, -1043);
  (196644658285533117868847800738217120034217970419584201932, -1044);
  (149060533541084122152062573332920641139071648830286875613, -1045);
  (112939198142140056512168139768108785211525586467043545662, -1046);
  (855319592900173235821077277012465204646411232861443848131, -1048);
  (647461597054140924557042288155722881576273126588198727122, -1049);
  (489893482137939273053760388289524239275292430162969755829, -1050);
  (370502840944773049894679087957708121453125188997912696939, -1051);
  (280081121842779365990487871591885898744165512058986002697, -1052);
  (211630727862953938676718838298645869081971738071784281057, -1053);
  (159836656637686363157060456361099944462043416298124258514, -1054);
  (120663800349930464059653434523981323121142043200147138170, -1055);
  (910501661409446492757740016925926963761105088918888330971, -1057);
  (686732805676751935732396945530065571115278563049496666380, -1058);
  (517724041731261257909977992022804261123725424572191893654, -1059);
  (390132863886652972806339079978768789274502041132051667317, -1060);
  (293853305526602693310961933248220913410238148764616458734, -1061);
  (221234393341201395189786706747093685530623242129161974131, -1062);
  (166486453719648694329164623794296364175223405669722319471, -1063);
  (125230332403984319753082684047927696512580703307558453126, -1064);
  (941552871157273527533787488046094206679679861703179845814, -1066);
  (707594770300296708931270782423532401818164101454480824397, -1067);
  (531532000538017545134804734701437637911320187998322659026, -1068);
  (399097761596762900465565895665935478733438561414102305921, -1069);
  (299525924311770752811559340309192690074467836802528497185, -1070);
  (224695805716222408236727397379879588715304982963680092490, -1071);
  (168484949575210643394168271764875849272608132262484824917, -1072);
  (126279551436587439633776963760251428774310081489601442445, -1073);
  (946043038116047385624129906389460270242362541631075041873, -1075);
  (708426626949638430962409958209337167116468829303441635148, -1076);
  (530255460932228941168978749802216634585623244764251401570, -1077);
  (396717983392581306638101434671714239848559487471951842219, -1078);
  (296677944895914525023357766359617297612182130985412624877, -1079);
  (221766245938272425590903790231021194933792341166663969500, -1080);
  (165696222607488456431994400185187249908546378171302814670, -1081);
  (123747639263563761300623314272305370867926651692210966487, -1082);
  (923780010064356254200109818188706513862588923391349139732, -1084);
  (689299068101935751795120853079937765399211003441192901503, -1085);
  (514108147591016274425611225762123476259713912626744865125, -1086);
  (383273785570855211073045325196517091802264218428418765631, -1087);
  (285608908863411827732390476192016808720955477596061303598, -1088);
  (212736768385679934495320652689074541205224528016914063910, -1089);
  (158387793448383297759878764983077183874310328764695400246, -1090);
  (117871652329609428604283612881601991112197198339319910524, -1091);
  (876810446371345467138714928499737662246782040944225876745, -1093);
  (651944924340125385234451709076589842903913981852073434619, -1094);
  (484534961637819929986116358156659949835436003093400448251, -1095);
  (359955252170842089908118407998303666954673406303060969241, -1096);
  (267289109023492077814591753560114053690969974659117610096, -1097);
  (198391715059820874448769936264678688509831108885597580224, -1098);
  (147189044924235587253774881250280318516795121546947673736, -1099);
  (109153407104205395231800488295520656802766992014886780630, -1100);
  (809112899777561795327538097740141051851549261104196732750, -1102);
  (599502695581936392532178760526272846967777861113095979322, -1103);
  (444000548797541098322478916481663846729412590787548374247, -1104);
  (328689923952441460137307395250050062601049439311191968296, -1105);
  (243220377034383891980809603427643834040589158413160208942, -1106);
  (179897186480483955971760924976863215640097392752384591494, -1107);
  (133002497771028737556078586287247534198971934915206528029, -1108);
  (982893355562715596817221385348220398422806460394403459708, -1110);
  (726046342148665042644721476000536009185522272726376494685, -1111)].

(** ballvol.const:1154-1281 *)
Definition pre_ball_vol_9 : list (Z * Z) := [
  (536085164079522197036500232539038313446803907823811698435, -1112);
  (395653400634863409391223980444545367634349119978654361203, -1113);
  (291882359301682122525914461611120165917338114858952399714, -1114);
  (215234946632433960704968698429493129554705559763692373268, -1115);
  (158646276071733738514102877996911969134568149978990881290, -1116);
  (116885138657950862344528575453142437187008007669809946121, -1117);
  (860797885019580163769456217996291853524061559630595982197, -1119);
  (633659176741402542940143704819721150486243104538117495417, -1120);
  (466254536517783547570715993844443761442414156847896034471, -1121);
  (342928340143074351033274212172555556908714046638847035952, -1122);
  (252113911639790493964399267394175778596156278310818845760, -1123);
  (185269330026005875551587266684874158397831599814909077516, -1124);
  (136089211799888673317064319610630566779718297622235927706, -1125);
  (999211615699919237273031997794517013988732471131363868847, -1127);
  (733339396266476259447841042997148742817815413548530622338, -1128);
  (537980440662288600384484443032477765922459894094826377157, -1129);
  (394495489708687682242552058336034327697816255140408574651, -1130);
  (289155757084627125314169452650313320416696692788027324721, -1131);
  (211853697836430958160511696295110138444496548056657187369, -1132);
  (155151084918917060038012765031137395894914923570440435550, -1133);
  (113576454054396479936185812372958356068299911841988476510, -1134);
  (831068215818850805382952236115378953151956324588535582230, -1136);
  (607855116998416811527136933553155930041390596782825702323, -1137);
  (444404732161443146125172194975014165775566834374060334139, -1138);
  (324767545919930358111551758604026409761084140081476854330, -1139);
  (237236812536776466255508510931529625765307167461882390765, -1140);
  (173223656432332604748826983043892780274098387599720295750, -1141);
  (126429419410788109692998878104657711273960945201268628743, -1142);
  (922369773687760074638700870546668739807279895886563962671, -1144);
  (672632913155892855313334236546720559192239309922765640650, -1145);
  (490306278326691577393406729694763856484206119646742021587, -1146);
  (357250823082545119535813839904048794615764257972266409079, -1147);
  (260193007094609243423813019485853751444860857832680177042, -1148);
  (189423892200005178052998934450750787764757107923604936244, -1149);
  (137844930793231256547352896862408530760931363616927156312, -1150);
  (100268358576229352107177422919854132221346791691989779556, -1151);
  (729044818038061929019058625948132651938218904389108409163, -1153);
  (529860956586357061300027809032819093660562935226675003874, -1154);
  (384934763779173602484093981478172096145179279122723591467, -1155);
  (279531030837239246571758122079651623774441077831254535043, -1156);
  (202904064765096346460024100503901893800872743632786901862, -1157);
  (147220894036655954360668419391935567641141130548581556183, -1158);
  (106774190829067721663483145546182040964191138029558366122, -1159);
  (774072099013355224722048865358557414055480538401631718845, -1161);
  (560938149668217105369150029114539803753838649044880379507, -1162);
  (406319000770123277016978345954932337605070976523693418320, -1163);
  (294196856446731681754041619358377402975512724469495293414, -1164);
  (212925569279960772025677936001694597396896197091913877030, -1165);
  (154041113820377208995013097758018820649300551439861226304, -1166);
  (111394738419874991270808947392427575047760682239513025327, -1167);
  (805215360281008666961550063380925959184643151642431557877, -1169);
  (581806969024831197464953675500668848940930036258669839232, -1170);
  (420209079803401232318227535340788581897975248933185227836, -1171);
  (303369377542863747874254063213238276232350887102287673296, -1172);
  (218926328040148004953689079535006483483139943225222458984, -1173);
  (157922619355885526186114807242337396777475546438855597651, -1174);
  (113870421166940087648121046431761211925261884953049312515, -1175);
  (820725460387274200945820418211495099175993471482804004724, -1177);
  (591296658841710198862260923098871217974322167122750413602, -1178);
  (425827428070480840884952843206856259376840348056464359102, -1179);
  (306536838202855944226277384387690327770015043617765189035, -1180);
  (220573177200867059147458713907395897697820847242780965433, -1181);
  (158651380387600545718354620832151437442258854170989351452, -1182);
  (114066020258963559958299032002525023028475607063948035065, -1183);
  (819766465637443549593659730837444072415836699848651755399, -1185);
  (588905458126186433601966855214120032795486455388490847426, -1186);
  (422885436142177723424805524154272121328430439012816242642, -1187);
  (303544062495186038393565467027930234321882795439479719673, -1188);
  (217792422867931339379117608102213951570256390523589008039, -1189);
  (156201768513624494958320062036555347431724485511865957766, -1190);
  (111982827445076069312240287008051593185366209935130024424, -1191);
  (802489498675611104933992805843849099106638105548113190204, -1193);
  (574843836649778520961581119067777175743512194367056733746, -1194);
  (411607365489347911477876847463710376949916163038157728569, -1195);
  (294604432982106907595118006889502808746580338452673967891, -1196);
  (210774682246908620949768811638569416400611517753781858728, -1197);
  (150737316347161831263084731239208201298018154577031559164, -1198);
  (107757232434436312118225295986447734752514464425635411762, -1199);
  (770008529525340254412509320926120505659077726400042971096, -1201);
  (550007034585203752123979598838447970097964247202912770293, -1202);
  (392703431746475380659106898842677824813577782637546567007, -1203);
  (280275435405609641571122445416988158953710550297660277543, -1204);
  (199953681720296246886414243935275332184526187099541800765, -1205);
  (142592914793837065855093697334063522308227336921698414945, -1206);
  (101646119344775796065724157903279484212192450240942542992, -1207);
  (724282705853312647966894836246242938580163162911997333708, -1209);
  (515881586105749610271116283182689863172748040230172808990, -1210);
  (367296404815319475901934402894655933404995235419353229525, -1211);
  (261401580811624730325468923997097717438943920149922193712, -1212);
  (185962238043150753168902656842645474996457179980272366176, -1213);
  (132241108842924140848589694024143822820719252912745129180, -1214);
  (940012229897793682597058600503897999241306708186000627826, -1216);
  (667922340905946501235732644020819024479780552654958852399, -1217);
  (474399279635577258059862464615646046029655997467379211480, -1218);
  (336812186092876239611187959472127733325729698343032557202, -1219);
  (239032765320195592429087604140053954232794150684427701033, -1220);
  (169571584850784987177912763698240135589276590103487644705, -1221);
  (120247170455913462682959685055922572217849648950060522374, -1222);
  (852359752359687025889947741539520693915823504827591820188, -1224);
  (603945047672673641643067162334078488855182018772729474820, -1225);
  (427758328471055621820242358249790427942147849294032413439, -1226);
  (302849054260240856659689764878914912527223866633011722762, -1227);
  (214328934965951839632078297310723097071257297244876851623, -1228);
  (151622050041528183230279481625189544346300779401007139714, -1229);
  (107218822856808735858246723058617521004655267068011843413, -1230);
  (757891358047237780819445833694470162032511221879944361930, -1232);
  (535513300816368413919483733304483663737751289909614370745, -1233);
  (378234459517139608837478395618222992946046282108632679141, -1234);
  (267042008213384767498256934226941703048444037625573066936, -1235);
  (188462902355836930924012268856249037861277130456945586643, -1236);
  (132953599239783647014956765450702302973608200079727483238, -1237);
  (937567172629149389338817817227058132660980250991560434671, -1239);
  (660895649746876304798465180405777884386448390294814544734, -1240);
  (465684449293073390388533885000289977653849988117040498140, -1241);
  (328003936498300109700589243605888351360543890650587563264, -1242);
  (230937781340193835277770049504175051819056898920506073601, -1243);
  (162532296096465721697207074383236686979070462655118095316, -1244);
  (114343961748570368549179722598607815338134411897008210877, -1245);
  (804110657303523999716208197190643054321555020388203624593, -1247);
  (565259087665870965516826471362358944686772614834141528004, -1248);
  (397199392084592895781601258009723305422280386602756051994, -1249);
  (278996668843043068656492013495283715923828858841298402159, -1250);
  (195893044298789468077933828766767526033769506423125167064, -1251);
  (137489236896208386429966735432719281784837136908809674491, -1252);
  (964602114198145646860037693584847386766124168276793658091, -1254);
  (676484223305865329127863265383382801283199903606536489652, -1255);
  (474238953928337582967177436268794906714129002446038221110, -1256);
  (332328047882267976642372862983692744213850337063976027130, -1257)].

(** ballvol.const:1282-1409 *)
Definition pre_ball_vol_10 : list (Z * Z) := [
  (232791502141777151186873926730166474113443167549286427391, -1258);
  (163003802312064031223935275565134009867794573079744005357, -1259);
  (114092991099335369183578079169307745399076981389733786774, -1260);
  (798272093298181315987582886190069954229870261359970083592, -1262);
  (558307948074388884293672984765626498614348732682736794430, -1263);
  (390326185816546683836443516633736683615700301850622925599, -1264);
  (272780116347012732366422598176052590735802768327493309188, -1265);
  (190558799979019054073286305413028719683623416053998450960, -1266);
  (133068945584028612842908357964415560243562986676030720777, -1267);
  (928872189435179373438055436078574420493231000417372813685, -1269);
  (648137088167014338920737743226357097028534368263280901154, -1270);
  (452074058319663249582493991435558968046541599154003079631, -1271);
  (315198562647766618621797654876583324949097783600774948043, -1272);
  (219680207346570427409709596254503102964622280364917069228, -1273);
  (153048761798498580671358447466207731814741265452203917169, -1274);
  (106586212438466128249342431413145928863777381198313131201, -1275);
  (742001335967866253598613710628218374473325102339625751710, -1277);
  (516346124858359646117255441905440870355662384912681534527, -1278);
  (359178111869100252276754291899170898114820168473494689747, -1279);
  (249753532342506664052578601695791178974922008677446386789, -1280);
  (173598664242802811085734161989021662822448908715916676827, -1281);
  (120618579925491123758476816358125053807684415164669163327, -1282);
  (837751594866651978204671517541739666449805997084643329237, -1284);
  (581633836654422447719670160040498848463969198970621695066, -1285);
  (403661695700338434907877185648594461671925897414430339818, -1286);
  (280039323879353159514828555838570893913773979445502179355, -1287);
  (194202238552493392874506951620100498247150761763815210444, -1288);
  (134624251356637895034707757784802485934909359649623896330, -1289);
  (932881232335177010822879941970297258749228208063856374854, -1291);
  (646194895427103692903993044895292005376297222813292605991, -1292);
  (447440126133738194469564395425471434353365722066154082672, -1293);
  (309699639399086748855581000287428225607985612232511106745, -1294);
  (214279666643756458564271314223939954106561433174716818336, -1295);
  (148202606543119423973533840879183067389727451478311549465, -1296);
  (102462622000258014775240559085036544099086043817371137977, -1297);
  (708125049366878487176452209796057334026994622405352845278, -1299);
  (489203374686259126099038073253483850987615462568260497765, -1300);
  (337834541065132137123752081766029952959967601256792426541, -1301);
  (233213615785384930687405352013053700564973215505204532280, -1302);
  (160930782765594911979001252310651038071430088561985919541, -1303);
  (111009421525526960110926018348093211925484529177640938055, -1304);
  (765448849164039188770719764544820977264233424745852335884, -1306);
  (527604210505065289045861519031018145018324479948861466465, -1307);
  (363526603360923244576286534455711034645396487161912366295, -1308);
  (250380288780325668775242990551602012359357404270121118207, -1309);
  (172385284000472015867373231011020460000200227733872076934, -1310);
  (118641459402105890397975115866660057488166252766942152200, -1311);
  (816223574684058792004491423869593680076582523568516399599, -1313);
  (561330026007270434576813453878352218418674317728415460628, -1314);
  (385890441823060804003586410572346847528799349346627407604, -1315);
  (265183501645685470035455966071411517220937875602169156105, -1316);
  (182165375976235510323748064214745004225549779484128272652, -1317);
  (125089870964459807512719619670869788534411370960918324561, -1318);
  (858648772551183929277691715682624442190573643712682835534, -1320);
  (589177540720303021725273006173518102376031304871710480857, -1321);
  (404123546945422133173843348966535237099481510924474226804, -1322);
  (277089196644761262089326425588266361530499661087558774087, -1323);
  (189916464656153792229541428737381247333872850244081281256, -1324);
  (130119788425751803669799894208880584654764166713287705016, -1325);
  (891172770962686141349282956795407906538485510891120537369, -1327);
  (610124434932835931066029736785747715593337169384282219915, -1328);
  (417554337111951408415158399137276037343638651771934178452, -1329);
  (285657592035860085817538171098454465111468568664246862036, -1330);
  (195351546976241624406469715778592397425827312418572394980, -1331);
  (133544611991370278934315170214016590871149910504975566244, -1332);
  (912587338063884125379859482688578169227797435513006873680, -1334);
  (623391934559566533266318936568897340158042375580734835092, -1335);
  (425683396736535034065835003381041422820868271502512699221, -1336);
  (290570255477665186897555885270770058419881026743310471518, -1337);
  (198268915039680923472105441430146848071386106144063487617, -1338);
  (135237537771902567219307144616047899039942416522383496139, -1339);
  (922102393669697199307105576954594695583438629055959899850, -1341);
  (628492980996717870373104197985436346691268598415892884757, -1342);
  (428214354147861668445600230015111121996521743651157048033, -1343);
  (291649768379917044208426194450526364717563026445584625228, -1344);
  (198564585852785272905989109161772711129397621643670097733, -1345);
  (135139346572789404162881866730024783704728330722685656457, -1346);
  (919394317138113490172679667302878433456653322552607174974, -1348);
  (625261823864506914128495254362156632413784804415326730582, -1349);
  (425071733991655905627037040493062280956720296933917908570, -1350);
  (288870287121013262482042506005138049601774666109807466213, -1351);
  (196238388942962673180283754780873638997204344418160364500, -1352);
  (133261787350917698893668328661125525389403296376900709353, -1353);
  (904623743294949442467764245037230819587108920218643150571, -1355);
  (613862539803355244541103409977256839914664552208675317107, -1356);
  (416404293948470644338652241971773972340306541187934061924, -1357);
  (282358132556397200046979947953608926075279791843573822816, -1358);
  (191393221769094392666877092192739796189192636315720558575, -1359);
  (129686291655045390237436447851110554673311674969690275940, -1360);
  (878421533172635550844048542178778570301023038880356576252, -1362);
  (594775914065392563928304196503416567541866669543169913308, -1363);
  (402573688602514180592776060315535022322910232034802222364, -1364);
  (272382455125363185556005837854368861854790722047867422691, -1365);
  (184227609998864330167415738206653466831382257607522057228, -1366);
  (124558183404453057934238318769816798965290541848364939650, -1367);
  (841844518052127587946447414606700371859822820931531532319, -1369);
  (568766095825464867233608592211845137173774465811039985988, -1370);
  (384129637382339013201911130586820423027032938971539528299, -1371);
  (259336921372457009404264189512151353336072040988286574370, -1372);
  (175022312810220081022712780141704490236941372174644244711, -1373);
  (118076951737435475364055307093877638341984960500962053541, -1374);
  (796305303604463673467893833815083191973122195812127864238, -1376);
  (536830223063102550243557117687348629395971645868485117071, -1377);
  (361773953986749526882137582170419798499685473386446203703, -1378);
  (243714145231215746097649260634572258414700358169400575530, -1379);
  (164122223264246094572914045298395899451154856870932059967, -1380);
  (110483487479697450097166243585976121636431241160061229167, -1381);
  (743482582404872942836220089256362946177727290905920034637, -1383);
  (500135608946970331074047953554161205376772728820768378768, -1384);
  (336316690994257294259164456726555714244489263916206101796, -1385);
  (226075158973591317867989421860620662941350944512743779262, -1386);
  (151915175515052090750078113002453715499345868685572374689, -1387);
  (102045410717037227785295193660357177632440843777221628916, -1388);
  (685219812443491288659552189660522582916812204707597356874, -1390);
  (459949946400570028686976706232280707424244523371744119291, -1391);
  (308628176181598311449772503052311612359196316673688743240, -1392);
  (207016529030236384749758839353653723450201076734486918494, -1393);
  (138809450391256357989803178502490073806199305366536027809, -1394);
  (930417177071600558304953587821956908654527791170005624438, -1396);
  (623420657037895389529352741281690782738385666469612875301, -1397);
  (417570252608842018415410046684929437761411322373929071329, -1398);
  (279590828871716514856085218034275570266321909054148406994, -1399);
  (187137751491237129737999415198755062068198548282676297870, -1400);
  (125211759657087051029985330040849648323470357452447070503, -1401);
  (837479466231029830707038312777679467682854096164354874607, -1403);
  (559949244529189363870459116217928041454098627146543212309, -1404);
  (374255951442916734467628795508308054148550493343408637546, -1405);
  (250054361477762050872318293764494671643816270348217940789, -1406)].

(** ballvol.const:1410-1537 *)
Definition pre_ball_vol_11 : list (Z * Z) := [
  (167011327786267839703080989044634847178460903892220577726, -1407);
  (111507302344446253165417336202044731506538062378798247867, -1408);
  (744229163744136101243106246089906981819438429556131754119, -1410);
  (496542199669636112345594840084449257064036618921975050318, -1411);
  (331170661955503296903740181661358566523855254323483450140, -1412);
  (220797356925611474834383938103646532433261067681124065379, -1413);
  (147157470818087409854119012704207680136911606691459267128, -1414);
  (980431596395115851671156925551076163300946238590404551363, -1416);
  (652978572377059022015920628104775628042241099802124732950, -1417);
  (434737713561356269728005513859414067246452408249557744397, -1418);
  (289336062895813782251277955956351745261823689418541349868, -1419);
  (192497365350638574440618151278354890394955242925811651813, -1420);
  (128024795720011681171283057551440945876081844730344044493, -1421);
  (851158773850748147539365702181236424856876968870706427071, -1423);
  (565684610001860339680879526945697801525415708213857164759, -1424);
  (375824898238651663884519574385783000562413490784007537154, -1425);
  (249599805481833106398175579218439936797847147202813515334, -1426);
  (165710700258621711117599985875565755820276462409654573341, -1427);
  (109977687971832859695294795055942490692615125536529427084, -1428);
  (729636325933715792721493244639096548248057850891083865219, -1430);
  (483900695505743248893920660476083343412451590153305487716, -1431);
  (320814572616600345832938429909288180700248479359599068273, -1432);
  (212618023785711114451209697429152152642529738409591754559, -1433);
  (140862152969512354721952778002210414098171176516297517485, -1434);
  (932903940706661950201765936593530948541148534372123460629, -1436);
  (617629455600644371198779700185623786447987258986096441909, -1437);
  (408759297995678835044974020810614476668303244072040570147, -1438);
  (270430684370125119918120497309639061717770715302925233979, -1439);
  (178851700232555114769007997640029808640008538141953477027, -1440);
  (118243987657960361661772632932206122647995636673739894363, -1441);
  (781473139822863787845056894767892330444659409874186131663, -1443);
  (516295264708006189814278042055554007196541620924564412457, -1444);
  (340981982645174746002983111136887715824904218087192063431, -1445);
  (225119973725172781731314644645559702752735068335666200893, -1446);
  (148575102868871477912042071378636931043521654738716258289, -1447);
  (980229044534068039623930077594708512057454159227770558702, -1449);
  (646485390137388432805644374371150986006379902212663517170, -1450);
  (426225656075234660774469520652102690329596535591499419142, -1451);
  (280911998936203440245824663933237427870151883799631131661, -1452);
  (185076349674837185287145575370871584440929230993950119308, -1453);
  (121893794497679632757625046709921340483806661928067889554, -1454);
  (802532091775961656186146382523790845366039324883817016433, -1456);
  (528193999051164545688799155931895460741804157631456397416, -1457);
  (347516047387100049960420845432769998099202181795099922407, -1458);
  (228563414199635365987181126238264634159339250300433463831, -1459);
  (150275824015949893866175670557858944110174981790637635271, -1460);
  (987693456573556392461039601835661625390328523625022010362, -1462);
  (648942164591973616900503943682282321287019864093432883644, -1463);
  (426226718017883824038141023921204958639781828778442466677, -1464);
  (279850643361263247557188426681078702409531366878573794248, -1465);
  (183680483688432397879950651012886776794362803697377187381, -1466);
  (120517714227021502475459501247793853313262069241347489369, -1467);
  (790478435840272698060015107849869100716095791883568562888, -1469);
  (518299200058925200843251586604847752838600144327445633582, -1470);
  (339721100801224545328447348734418226264725493954547017716, -1471);
  (222595346447926991352161253531079381239815223945688706983, -1472);
  (145801272479038887052290164082217956950151677143590016871, -1473);
  (954681099145504864656083621248655963465205662640457527324, -1475);
  (624895233975705687219861163183500867886500123345171888379, -1476);
  (408891496604846232848454658105023377893534701705721916988, -1477);
  (267461345547868113243410700514917519057330649485751233105, -1478);
  (174890472681976965183640793445016447987485681115511047368, -1479);
  (114320353509173281296969292205004623650705094501962994626, -1480);
  (747021922719979955942254753229052751176504006170936356447, -1482);
  (487972802636150706718519792068301319088230202382876209006, -1483);
  (318647465646654621167557192154803909252065328908810097944, -1484);
  (208007024682951581000831365987562703903598354093897194933, -1485);
  (135737021987869311536291564921644143611259342030572184289, -1486);
  (885465231218199834603906797126564332235374804830959222001, -1488);
  (577427801079548357513990787114803048376178581316989302970, -1489);
  (376423689499903145675738045233942344146546991527596061450, -1490);
  (245306685307642677660749246025205763489512362212449639361, -1491);
  (159806742914873123450093482363621952799707413045538862962, -1492);
  (104072070282100405838269841137664763391715530248793595584, -1493);
  (677527246336677659230642113911685284964373223596609153953, -1495);
  (440933312801250540465298267903230203751360040761061600574, -1496);
  (286861808584666939006982365208421335848473978713383178859, -1497);
  (186563347638978994429787410941912714407193204232396575337, -1498);
  (121292456318313746852319857739583226604449590514342463264, -1499);
  (788306714689623545802788741161237891727641637173534771505, -1501);
  (512165980786929256818839942061838544034935293096834492978, -1502);
  (332644537762851105035391567195337671286850418004251937950, -1503);
  (215975420491117871690139155781538879572982086949122573182, -1504);
  (140178891494640588477019245635114974602138714604533965445, -1505);
  (909526534009198927799631934820274489293247091551075684571, -1507);
  (589932988222268752865006952948984655311782338488866574137, -1508);
  (382511630185848271211752360485290224851334312205575097121, -1509);
  (247937008951084084627656841366723564958042109570497826921, -1510);
  (160654508997930043653546669965724032099524695606637023422, -1511);
  (104063738927689053853771310085107136233444281321239134302, -1512);
  (673846495639482457256964669002337404205635161595501349912, -1514);
  (436191964937043521606700546083189479403688231693498161513, -1515);
  (282260160046429964177437413184238502732520966230340368523, -1516);
  (182589936389222199415384394712749231444395216093969160430, -1517);
  (118075425459779447166665581883922524444079158587269637964, -1518);
  (763304328382978203541663239945449470434877439738257528348, -1520);
  (493277778183420672585074510347948984916325760158923711866, -1521);
  (318669936279236601498362462421003391933415634460087634092, -1522);
  (205800510507321377112622275665624412583114214520482230140, -1523);
  (132864118212976408418680752263880201415611815540734167808, -1524);
  (857481925616485266069276972109940273602066483378523943373, -1526);
  (553220593377829731619310316726418241142855835689400625135, -1527);
  (356802505708977437006426629804662045687061588417683098397, -1528);
  (230045499929897564962636993487684429925767130145573412962, -1529);
  (148270916761607642536487277860138090084933963172948809614, -1530);
  (955332785949976848019329391262841672795416275019405269675, -1532);
  (615332658968679400829501084152000611982008162888222577454, -1533);
  (396206793673124450018824945352658796857856770994830830166, -1534);
  (255029625452490343591473543431956935378012144405903118184, -1535);
  (164102880989565556186575951808816022281615646645013797356, -1536);
  (105559841603333361354408192510685717809184825873671449774, -1537);
  (678794477089847650556275619608342678255357553746541713281, -1539);
  (436350030125176722594258636577677525070084054231492899604, -1540);
  (280407066735409676892871096092723013879594200932817871743, -1541);
  (180135880293684646438836006757759408987303816193448180629, -1542);
  (115682833994829406152256801077096143500952908455179015963, -1543);
  (742668711520433191276746908641972918432923286643037900404, -1545);
  (476627333015873646757547244658325714669938429316604798038, -1546);
  (305788016797325079628425522716843063360287861812123309006, -1547);
  (196119047531468835534914551610863345350971196004340415815, -1548);
  (125741019257365021586814809323955448420095193161534130401, -1549);
  (805920417205873078067687339967582337019611251904546909494, -1551);
  (516375244906968197270220560313205512353643354099975630835, -1552);
  (330747702426125677768119990560939469224396262977560610476, -1553);
  (211780767088167308747310827695310394134285900419909893798, -1554);
  (135560933089839460281663999389018384294070320378937911654, -1555);
  (867443157830244439192134718260699285310530873696282463690, -1557);
  (554888900988686852255941446254125459052161404600106958498, -1558)].

(** ballvol.const:1538-1665 *)
Definition pre_ball_vol_12 : list (Z * Z) := [
  (354837636985185867265504875747122544862571734194007327601, -1559);
  (226836030566632761622128408797380013235366520268790875629, -1560);
  (144961679267857194991764360670862009450867503719389195160, -1561);
  (926090197787658567809076635692614131831539770517649203441, -1563);
  (591442268363558442996997191024638894787066355402721290377, -1564);
  (377598723157849026289836541321077009013593223679563540639, -1565);
  (240994900818863578246085684011971577593059438979185565569, -1566);
  (153760385570652577322875079704423060852698804272719147435, -1567);
  (980709598400443865588257135314069941089349668044451617638, -1569);
  (625310676662648783282897923085147352025346890436918467293, -1570);
  (398575688181090671423413241153778502594832280353897533722, -1571);
  (253971742471188104216557445677368037635478496310024176321, -1572);
  (161778094817727471934810632162156680972607780358416365870, -1573);
  (103018174353374232260531658125202321962697644108473097866, -1574);
  (655794676375645969601972706513404737196891801039669086734, -1576);
  (417332224029391278532027930925685576013228386809552525486, -1577);
  (265494811541884705177419097636256463380210044030179052044, -1578);
  (168845827317067021329505171203838630713936709200066992679, -1579);
  (107345759267206130791862068131288275112166894030656783809, -1580);
  (682244129503007823809138204443762216869367112195382882073, -1582);
  (433466129444567155945639796621994617428485939865042049232, -1583);
  (275315754040001656421581644801761245727603644330277400067, -1584);
  (174810527322600069336701655138511919040968459980062474969, -1585);
  (110959583105786227337640581954372127437914951135804165750, -1586);
  (704081369752356673990296413208472049544616188898316139920, -1588);
  (446623717015405695645029948898289718764487781528946241946, -1589);
  (283218547854474082925849896660426656563893100207806498080, -1590);
  (179540599909733239882983942678801242240690875846431476492, -1591);
  (113779707071609344837664985738110591682083950987357653229, -1592);
  (720822274373830340527228472692372598539858146535525283991, -1594);
  (456512761000979009621005362530297777863801680398155639502, -1595);
  (289027436083817699658937918446011560035350841995197360624, -1596);
  (182930757172279173742711339402162107540419868493204540991, -1597);
  (115743335868300217332353025079296020247853253690948353821, -1598);
  (732094169233185517429394163428489954303304382276738854537, -1600);
  (462913321025879026431391136888809145323328918103292324785, -1601);
  (292613443231412017337639584832143899084618755757456462307, -1602);
  (184905923532581706171519601019583110493848698201977050647, -1603);
  (116807146581628716999364230045483775161896077632439026869, -1604);
  (737649639333580644675375239927128111893043742608422986658, -1606);
  (465685880187348867204287254543761277545890361749976406591, -1607);
  (293899136062591951696704608642560275207516806481268822538, -1608);
  (185423997474914049193774970235188616505757780600467894001, -1609);
  (116948874825918422650668429555106670707599498439926014866, -1610);
  (737375529451192846472231121778296587682192783272983391000, -1612);
  (464776376974949558753737457012720346884950239424005874674, -1613);
  (292861383850916772445188819503508660456469893711226749887, -1614);
  (184477328043787980210148236500086410193074527674930318411, -1615);
  (116168077276032909549288072537326807007585640686347728180, -1616);
  (731296679540995156653365589460873107317942123104667946451, -1618);
  (460217879132454461700967228097719168720120187716222746414, -1619);
  (289531981857668510819692358004046797368302938566570781874, -1620);
  (182092834777480395978434286056333276767183891633999327448, -1621);
  (114486034887771515483818520000880423059312482489807360616, -1622);
  (719574228941223175574381279114376046890780372460755148296, -1624);
  (452128832359582353063288419937400085903526694262513463782, -1625);
  (283996119516870189952174480613973624439129349031762695601, -1626);
  (178330774415190847805620918156587481592011702974108505827, -1627);
  (111944808371669797910808602283570063299012496814578131514, -1628);
  (702498621707513760525224285789830216740983882629519812028, -1630);
  (440708004496184237490223329179861037199458084020549015540, -1631);
  (276388792625332558807121353319997910685450453714988358058, -1632);
  (173282231452244051091602812589867935576485892643027067989, -1633);
  (108605503495471868606306159409120811234950821582998153214, -1634);
  (680477731660020149660735456384133675380398022200208072177, -1636);
  (426226423386377305188273665423464835330910699219296640968, -1637);
  (266889368628535076287590995204519286285303802467513450938, -1638);
  (167065477289643890808836002435812702742849723566546962926, -1639);
  (104545845362172571926753654352537059949266990494756682937, -1640);
  (654020780213853818364286211344282765320770300359685442398, -1642);
  (409016761834540359635334772319391133613095884097066607572, -1643);
  (255714608390156559872237909350762626711129818475933793752, -1644);
  (159821399772945039304756561862959446793775934943676692786, -1645);
  (998571951689380674977022139264187838682829588610292973318, -1647);
  (623718925979033024348245310982887328393988278963816019661, -1648);
  (389460745811071415500041688543467434432527658373497739469, -1649);
  (243110520565836995853651764776082027963394549280553028321, -1650);
  (151708247724942814571510164093673539992106673551115113478, -1651);
  (946411679578716047333690105515689382047035645703621778365, -1653);
  (590223549896793572545120306627054178651329279646431033196, -1654);
  (367975245029216791942366533381425358131772570343034944631, -1655);
  (229343471655096531190589973195439219443570162468566943814, -1656);
  (142895961246809833788656957892613937162421047412911567407, -1657);
  (890060241754700730403789554687221087726024565604820531086, -1659);
  (554223335902011808969857053902988809372644836727777901543, -1660);
  (344997744200977563881755362793004142857810034340924827805, -1661);
  (214690993898617583611856889487371538244963773454096173400, -1662);
  (133560367059376686004111153698331543580191433206865712609, -1663);
  (830630109881512468093413896354713941855107225862361787070, -1665);
  (516421252879377246680877122760010404939239994548781919586, -1666);
  (320971888198553787547572518285321923599290064162105061795, -1667);
  (199432724548677125572793584490672630762334300949977556470, -1668);
  (123877509333344107319517353439620596559563957338821220052, -1669);
  (769228216485599596114965429897349996314155362647669288307, -1671);
  (477512482535748334819924654633534355092755207594682153136, -1672);
  (296333747865743564975159760719508846939421041025856424858, -1673);
  (183841875873986692648082699097470415505077892703696307143, -1674);
  (114018361948040423138701698216106873494117740615737291696, -1675);
  (706923239495573124577419389093804036174754281118301230339, -1677);
  (438164218067652379225806782531911816925323241048235846353, -1678);
  (271499371130952383980840024636463924116059610946528884206, -1679);
  (168177579541509207658685032630501160638151147971188873931, -1680);
  (104144130622618901556402616649134826888709641128180297094, -1681);
  (644716837566953550441698286193678439880514486263199986815, -1683);
  (398998092290872391238189849394880828880719271762997795232, -1684);
  (246854074411454637560013625356318608089822881359535539152, -1685);
  (152678377044743851433262983762585319006548100776125515074, -1686);
  (944023063517631226264329678804610389495829332141815795282, -1688);
  (583519790371994903126645374127025955121158617749943590133, -1689);
  (360575795886482798323512239505220842188015859306581809730, -1690);
  (222743801537899799694612090444314403823743432311976773733, -1691);
  (137557045709686356720238074678485157126948027861900204553, -1692);
  (849235789495302062897188392662983511728727087508295776339, -1694);
  (524133661917605875887334012293886117591964843367422201452, -1695);
  (323388232417450795796165437220032335784831029821179169105, -1696);
  (199468741584429679089878548536297695219375284185612983667, -1697);
  (122996863828093467547268150321994089564772996504464677457, -1698);
  (758196652368354717598377615272574132764379339104379327500, -1700);
  (467238263382010412674379151243077251477898333461473997430, -1701);
  (287848342363359213232244094613630325675899367963029793594, -1702);
  (177279262767750822864862930687350047160530735904490850953, -1703);
  (109149334667076519821227249758910894257799762907723568432, -1704);
  (671820542273800411275053646087125864605737976456773652392, -1706);
  (413384867913563996658847897984576613801947564450023089806, -1707);
  (254287527727479819246202512348679967042000832531449906461, -1708);
  (156374095622208271032744863497960763660950164357468428033, -1709);
  (961333127566981288602511861938927702436564182365744907314, -1711);
  (590816247767260796369204169726273659472209097630356715861, -1712)].

(** ballvol.const:1666-1793 *)
Definition pre_ball_vol_13 : list (Z * Z) := [
  (362994842694342302910009046814811025834768201989952472364, -1713);
  (222955433466319951941792328926561501161357122674839061118, -1714);
  (136900591968730901237349207069356049476130344039700770398, -1715);
  (840354111404581513022904773445237480060399556757130030377, -1717);
  (515690520384962648136709381483548473043321148705234026029, -1718);
  (316363127957173393010555612322104447029672071034274472838, -1719);
  (194022700642789960374615960035276788708475171787984736070, -1720);
  (118956801754272132124126390397746827939584949742788368345, -1721);
  (729115180584976786940710189575370988707171665214112582296, -1723);
  (446758893587278851150760992807327037915975117886698032900, -1724);
  (273665817795287756224369173888064473138973688901936757862, -1725);
  (167586203942650677934130149926094079015657339887859894241, -1726);
  (102595050444429465621640057632996665531816661124977929771, -1727);
  (627892173105822555859665420367642335648231828859479083732, -1729);
  (384161927021327605513133251140950871577801138811553229430, -1730);
  (234970987287168897104447497896300976779992361772386192038, -1731);
  (143676224728464415097392880232513466722112401718232600415, -1732);
  (878266659688412263950397602882134322679602342177620626732, -1734);
  (536708884782948861253982526571038791398536524055881564938, -1735);
  (327885452878189301855384772993152148169992643588886004745, -1736);
  (200251863367040726063899883946021877379455645159301465444, -1737);
  (122264988721790129109779678871133995999059325575943056159, -1738);
  (746274949966265933994732165850090096791029060304316382750, -1740);
  (455372602678855713417935315984858515718568410800322722110, -1741);
  (277783400518022698531538466424929255332568796355861204706, -1742);
  (169401447391587555922082180465952364141251193102472006770, -1743);
  (103276010693090091736876363534485452920494369754692662561, -1744);
  (629438607490111541038892437534637225900493626620727185099, -1746);
  (383512005301977261075469249738968419748341631536536751010, -1747);
  (233601855307350717330573185436803336702737301162754301122, -1748);
  (142247756602146587646294297730891515314351723347767483271, -1749);
  (865937312682618130044380777702479134833579837028746522715, -1751);
  (526986447088364066991797907410446236819230467991322368963, -1752);
  (320615474365704279328785526982718011299313884531767292822, -1753);
  (195003150849728013887491263274296707194200775777140028662, -1754);
  (118568948663272894412873188208326451042386508801688467022, -1755);
  (720729960160432676855652912345309570578195250056203792636, -1757);
  (437972178794125173703409510089165739480402423940786137533, -1758);
  (266068149008469994849696341492985268469061158705814214247, -1759);
  (161588981723586503224487031133518288514986656120675082426, -1760);
  (981077162299581884796033500051385878095847796768027280615, -1762);
  (595480067898973283484626679903813233328098686741646527530, -1763);
  (361329988943152134933355454959887114161302452360291643679, -1764);
  (219186386253141854871081387119365130852609739255006780454, -1765);
  (132921737562703508911047654109299258546845131183437494075, -1766);
  (805844752275910237571616034525393753344136112558424493158, -1768);
  (488404624829683991194685185514231338629703309441032355504, -1769);
  (295924716970647155743472730147006900002831153099640648959, -1770);
  (179248642680398872477496654110220720343327651579993500733, -1771);
  (108543481243505419533251585631342800887135840217614369025, -1772);
  (657090103863107307282722339571437497982232019946410996396, -1774);
  (397666942588522613746894602766789995673085365903778130434, -1775);
  (240595506182155260446292616796159081021085243354844733093, -1776);
  (145522136914573875290672535742932456541670760467165841713, -1777);
  (879922089299856401250415219876911381766801153769639326709, -1779);
  (531903753653884057751909001490392024258412031384413942816, -1780);
  (321436833892536149158872332582470747835250329249297008972, -1781);
  (194192321312710900425936708619913911563051944201635367877, -1782);
  (117284970493606762945073532356936052509394892083890553546, -1783);
  (708152257712781425841833197333076019023627297790847139557, -1785);
  (427449653920197995951015728967958597630815725987597633610, -1786);
  (257939238313449289857463339166592710984182326115909899460, -1787);
  (155605178741042130712672593941776533360193748214129177271, -1788);
  (938436613964191336185004100811025848360684488249807193883, -1790);
  (565796396288639617710226369488369667059664399645019459281, -1791);
  (341027827910883085770609583132521057621141652901045702821, -1792);
  (205491537804389546733034190418757072022260460847855935370, -1793);
  (123786310668343679725979975550982260666771785196475888620, -1794);
  (745462708477066363423579661297378079946372645106605882073, -1796);
  (448801112764745935317425302884935166068621547133575551835, -1797);
  (270119973296043987463756424414657551958576807606083276113, -1798);
  (162530291502553338274120352401948426214818601567227917306, -1799);
  (977657746192077095397094263843743159487790698850725049223, -1801);
  (587914760817765302517177411327898638719269695761925827338, -1802);
  (353441011871367555574661181158521317210494048573686333456, -1803);
  (212419631227382621850372301488859299683026796727779705566, -1804);
  (127628469697980599155523243138429585774698208647267810677, -1805);
  (766612237727970453118489759154718674821329437957643531425, -1807);
  (460340600220532018032988693083121039989019178762114417348, -1808);
  (276349211038235697355456328382699227479389689706061035716, -1809);
  (165848927500222401491239153161387588762316252668915775619, -1810);
  (995044872461956063059106748906884352033399916988199776589, -1812);
  (596826772325824660294164366856117777287653330077167722405, -1813);
  (357873573133219682594193416332532022880822764434066457415, -1814);
  (214529359657267605240002570742028221395462801791605773824, -1815);
  (128564092426443974697695746121725756717314148782245293724, -1816);
  (770244411746965111376541026098170379628148253143551221827, -1818);
  (461331819854203959164593772011810028531615099802828722785, -1819);
  (276232212946673223168934277906123345220837605047122550430, -1820);
  (165352727452501663127515752061814490733280329398886107244, -1821);
  (989520058013819806317986582096776160344540488892293340460, -1823);
  (591989645374147637566411716442903286286536460181552614082, -1824);
  (354062522190884090607537946224040438536735751578147351127, -1825);
  (211700662596317489402107705976416328008133493191241089806, -1826);
  (126543824644636473743849895712983436834047789404546102336, -1827);
  (756199256819423023238699740246465432283516951867050179102, -1829);
  (451760397569028379447858232563335147080248938562039385168, -1830);
  (269809202711409508927690975355751248027042822735161081633, -1831);
  (161095022268520300239874705470830035637893200394368531634, -1832);
  (961577548620627834323037904286825489013316572693734161759, -1834);
  (573803785134543677209644843340931422320499555977189387754, -1835);
  (342309910776594518412519787323034353271083466291041280635, -1836);
  (204151501243567228256630700578294402878466616294904633732, -1837);
  (121720237798158113666059035421678141434784827313539713658, -1838);
  (725521330911898577893731777072499373413612417616908253517, -1840);
  (432329457162121198488466577805102672320901901431381582250, -1841);
  (257547173244690388466028447882674090636438594225918461186, -1842);
  (153382613952680200755433700895131732442393048433114117720, -1843);
  (913214793925888348791733993298030390812590047569290070429, -1845);
  (543559721581657571301581782738978585035008579957477011388, -1846);
  (323444068517146310460423691506038410422612006970460117701, -1847);
  (192410504575577331160830601118151640910846712878010575107, -1848);
  (114428998817641956993331639147429645021297744481962123272, -1849);
  (680332501573594869348423629184541053093343666956565190292, -1851);
  (404374917933789773522483338623223935619097845115204365149, -1852);
  (240284158397073871801909445098815056352679699047427464309, -1853);
  (142739468705254998353483495192921729448885162300262480651, -1854);
  (847697862767269516320520548745962419877808220661876506280, -1856);
  (503287616455375195087475117035631108370221676513022897002, -1857);
  (298723654305487675722129028015106098740007733806338142183, -1858);
  (177256129876561014398275114849166935085712967056725283017, -1859);
  (105150480427968301524808488902750074758668652095388299089, -1860);
  (623590767552029503490593676710549280724269195416697057184, -1862);
  (369714579556734811600158108903468615271864385585652312665, -1863);
  (219135142526608087435705134919407309971751244160719818580, -1864);
  (129848251208549719393629639099427034690298731055970790491, -1865);
  (769199278106082960748753039683599371967207399784999657812, -1867);
  (455533570159979664792004328012297008972148360922418985729, -1868)].

(** ballvol.const:1794-1921 *)
Definition pre_ball_vol_14 : list (Z * Z) := [
  (269699866210339566668982596176026413158193707324366594431, -1869);
  (159632004180493337324380116746867707329402112751352176685, -1870);
  (944578727269289735549183085630175441529433314904892904967, -1872);
  (558772960012538196280355036103582664373583215672130572163, -1873);
  (330454520080890593793842192785641033009271559151946089956, -1874);
  (195374182103507323201712559348106649458665364712134764021, -1875);
  (115478697734334449023656185976020023800398641381010956977, -1876);
  (682363641131176279796569673582569459132723190948206141096, -1878);
  (403096698275890451119670145490442017008410561253582269036, -1879);
  (238057590455800718663930381510213121307084863698125497111, -1880);
  (140551123861247382392913187528803509254021135438785434248, -1881);
  (829595094073467793901568534069148152494682563314910497246, -1883);
  (489528135450425576998610679661579538542227031023310104754, -1884);
  (288781147146298043290814157666012786820487459894359477064, -1885);
  (170309855377249858554596583030285200709279656537454489196, -1886);
  (100413141158831545869736576615449047347966688550629717779, -1887);
  (591863042574234845271529267628738598578744808861286761047, -1889);
  (348764164276904458017988644805934687061102910663796968338, -1890);
  (205457744362709305813020937290241393792390697382816647503, -1891);
  (121002201692734052876957803445447932168036786284672583134, -1892);
  (712433267453661490873983446167029775847461793166639286051, -1894);
  (419348734590274400881005752222610856686407549353160955928, -1895);
  (246766826814266293459619680947747387236378069368072979641, -1896);
  (145170567920769374245835135865810905968964728282850952200, -1897);
  (853789482675510780892312250321535124454020053813784027788, -1899);
  (501999768516617690282415826162294838276414245810000914877, -1900);
  (295077972110628681653037999057411642235467583791421561510, -1901);
  (173400636050091579261350228722835964512404649415244558647, -1902);
  (101869757079002743105755750404936028818624767016289722186, -1903);
  (598302212347902436103339643129762265429686081396676263754, -1905);
  (351298880858805545814397899254407883416913191812051061837, -1906);
  (206211940201721423217014513621703236358900827460302376702, -1907);
  (121012936767581089659669362760672572576701590030510464796, -1908);
  (709954976898877555235632505916709708576826817798833071538, -1910);
  (416400167730951732451892967407237379754954044712974943071, -1911);
  (244158657887796945425585651751776663797674223129673581470, -1912);
  (143124694518283987613885617051494205132813821609926056538, -1913);
  (838761121848711326013338688285245116027067993361667952757, -1915);
  (491409277427239701354362089040956758100403154252325073289, -1916);
  (287825863300561978992146792505697766874450235879095571300, -1917);
  (168537966798175202728076130128888405175489870541651924939, -1918);
  (986613876331899172942949542864809053001285609257190844714, -1920);
  (577402004737303930140801251599173950805973083433304015505, -1921);
  (337824403903437953622705114948232346759948279582987992585, -1922);
  (197599335103565688477908878963951219283333118159295444395, -1923);
  (115547813337658328334498188163569312076242550715878727471, -1924);
  (675491424935353332746335565436120175300373884241479728432, -1926);
  (394784297465962078896808872730434436091855628376544269441, -1927);
  (230665097623892098389273885440179651413460134639062528667, -1928);
  (134736713598226408901191788382203109195785632041127050283, -1929);
  (786814089180012908243640695488024707207941416973769266080, -1931);
  (459346575810114034386836200889257557682179241134414533135, -1932);
  (268096460120268218731984778002388729224911926800352316274, -1933);
  (156431417671184962389772059842712725485818594625701643752, -1934);
  (912513401481325689916039295980356678218792518047122034277, -1936);
  (532153538220282880425966198304191164341415291121259752071, -1937);
  (310253830995234452201365649529064241689751534468583896451, -1938);
  (180833926041606917403373459133323457454238620541323352137, -1939);
  (105372016886780307543395780898069531952025998137719895081, -1940);
  (613837421471758282973970159397712947497917532591548987076, -1942);
  (357490231258583855384888949586083324717310561025365121160, -1943);
  (208141082978324601131387642496156767578180731583517464708, -1944);
  (121153040372393020978893321324848682543478540074528946198, -1945);
  (705007544145475071213402426421356447453100578095742877353, -1947);
  (410143859476268903843313776389157737392978041185623270960, -1948);
  (238540282327712044105636146336884844022262556295045515035, -1949);
  (138698055526976414562173733779734718948288543817231190858, -1950);
  (806236039317886327788846713407630723322155434140174487567, -1952);
  (468529884205094970570466846569393585858114489088459309536, -1953);
  (272204752088168015418074350104139258392588334489265480583, -1954);
  (158102045349731778993907640553056321116636421424854354848, -1955);
  (918042350437380104912522495380785885082042445985135367870, -1957);
  (532931571017422413886551490182803723990378121716874605146, -1958);
  (309288482983204272929959166380574398862663934217562921286, -1959);
  (179448436052990506710918019510866467626736474435514418312, -1960);
  (104087672841988893651079669910524700309090590230930541236, -1961);
  (603590886940313456957727073979349965495914608103629476821, -1963);
  (349920886388068639755320493928716166457394710276281517345, -1964);
  (202806063763148259872780088102409340746803009288263284631, -1965);
  (117510303154931600032448561384614691547381944722908060566, -1966);
  (680698760707018964201697863483585292890124208129669391552, -1968);
  (394201286826099965435076401836392270705704228909932033328, -1969);
  (228226064668606978651293989318827534959937365795883047373, -1970);
  (132098119117708649985887661979614727767327985652161980117, -1971);
  (764385211215996539080933295720771389210039833012946666038, -1973);
  (442193373013556648331881343769596071727111277136423833009, -1974);
  (255738760816704702066679626266940892663392775085641731475, -1975);
  (147864976277326311580109458959572646712696301220678107538, -1976);
  (854709587467996557048661985368816405730425571324851917941, -1978);
  (493919748214861663112670836136218802181986620091826391656, -1979);
  (285350622841893814217979968409911935993664003563619377985, -1980);
  (164810903075382877757453477791278066096206407162159737871, -1981);
  (951651189402723413266035776613621469544234097871245483817, -1983);
  (549356734570952053245194547671989248351684668022460671876, -1984);
  (317041398240464980932377453249239531926877558578587379547, -1985);
  (182920517385074824085239280239268307359610565644147759660, -1986);
  (105510055889415337330075269682416313561271083133230716879, -1987);
  (608429596196712677110916579089968451143142099656356533007, -1989);
  (350761498901625102407485581088601748728589826421041702867, -1990);
  (202161602288545420526810615825030481208664377866730632907, -1991);
  (116485174218973546707075022509346404264386356896466346266, -1992);
  (671008351386831299831359494699290584893464522786557221178, -1994);
  (386429744011039573043075879711141023337018916075865796940, -1995);
  (222483895220503193783700023676071267532600940425270197138, -1996);
  (128059582796800245118454149569867637462784406881941119077, -1997);
  (736904344508986974825293906376085897211755732433768954791, -1999);
  (423931553778926784011206008704045665102763270503722583119, -2000);
  (243818143771230707990414551017990309059966483257312760019, -2001);
  (140191605787029761564662753583178836470484945189585209974, -2002);
  (805867742539293421989962429618476090475577439655674111220, -2004);
  (463117685421124124927756920466826743874079343725700823771, -2005);
  (266075478689063071358878002848890015896746478445007673212, -2006);
  (152828478809507609385288216511486121070921461748151736957, -2007);
  (877586109343777569224342702136257289905584616078359265048, -2009);
  (503803595264693069925282549740647249142083392907469521154, -2010);
  (289147149869623557021614260748393135911705641904117461763, -2011);
  (165906255108562399662218984258213019572131606530596230156, -2012);
  (951684192600142806211292294379614229305961232055883743868, -2014);
  (545769499721103392306351134047342969469107803318047528921, -2015);
  (312904664365268708392626153560902769341053587325390730573, -2016);
  (179349942560376059311470268042283570037488278236327102325, -2017);
  (102772503381485430003463887321634281418193684250551514672, -2018);
  (588761193280489885361317140486612063699121719783880818952, -2020);
  (337200356777343927644602791273677278108748079858733815764, -2021);
  (193073887215944401143836808045111952035170625895735569892, -2022);
  (110521248162708495605312066582822210474721897885482683079, -2023);
  (632491663897429852235271660446922933745360425373754494550, -2025);
  (361868411978675813702082850230615785991860973898347884433, -2026)].

(** ballvol.const:1922-2049 *)
Definition pre_ball_vol_15 : list (Z * Z) := [
  (206982412995515653762072501211297432465580396635660315827, -2027);
  (118359515318939372367881044728499082527739038251008990903, -2028);
  (676643525586889206525344724868226788561997175570472660428, -2030);
  (386726348214694254629425278275646018786922259025713940097, -2031);
  (220970720278884451204334150868383655546606366405492391303, -2032);
  (126227184883209529589349623023637252612613598195722478355, -2033);
  (720872265302791837651276568291066106269461574501612438012, -2035);
  (411576955591501464838378676600470307761374173602037125624, -2036);
  (234926038677581249525358368787824250979774325236796675954, -2037);
  (134059838265745316401233332533271227729323610340094420590, -2038);
  (764810276939316972508058496472318962789880562772945268876, -2040);
  (436210671193269118315698777220109848913118128958014741804, -2041);
  (248729021472311952144417231534750273420259925932056633767, -2042);
  (141789574758225257068538904388626876946796187900817694149, -2043);
  (808071630395029128081476731304321382660996896632898686818, -2045);
  (460408358052776487237677405221419056147781148200921624420, -2046);
  (262255361324726258295685508887370072895526395142171812711, -2047);
  (149345948922038382557382643343891238826615599499162313148, -2048);
  (850257498970378533702587072558745707729927215746925200591, -2050);
  (483944441440817208140569577654532400598891425871879626193, -2051);
  (275377599219069318551943057907618427803734558311783461503, -2052);
  (156657012053177458502190606559260936308475427324453685284, -2053);
  (890962144871083990426347784257702156232725898518685506012, -2055);
  (506590342974359233558846408112758905354346161343079167381, -2056);
  (287967091456131949098814402984306964844075599573798865482, -2057);
  (163650437004399043135005806933545970102390570211654635858, -2058);
  (929779341206787509278505206685245506052771527836179404269, -2060);
  (528118141396794333651582592624905550356821289677494632086, -2061);
  (299896093202751679834449238289449063486283057233794451225, -2062);
  (170254702230853231940187795934798393282877446011144119795, -2063);
  (966309090508763697193497056679697180041825500142578421426, -2065);
  (548304379054399072861944518479877548323020175698367261018, -2066);
  (311039911868787564658121146302600326078599948787044339107, -2067);
  (176400308158567683565677356156696815375976093665772420028, -2068);
  (100016448526120752309103710958441066178867982173256606660, -2069);
  (566933925526273046248399705351130346749349353557811034819, -2071);
  (321279079680779815052010263369305778067495666388632590439, -2072);
  (182020996985606781450831005698400406945557394955136388626, -2073);
  (103097854594200988879807868249909427256984175519792752148, -2074);
  (583803804930140035358088250277354901760188655034394055450, -2076);
  (330501492442867898581432261691888454499887922194674224378, -2077);
  (187054945915991499243109729110512151164634610977318546177, -2078);
  (105841086713453247500264284617910511502992887031709632069, -2079);
  (598726891398181346464448111261550864374297188344192836422, -2081);
  (338604460760636452037631303020179332452807458844561190597, -2082);
  (191445903666481474590001269249705401678985272450098056082, -2083);
  (108215390274501413102270825066017384580167576731190120491, -2084);
  (611535378259763561206319813206165387592953046391429481720, -2086);
  (345496621028176827359460358935284081837508602847376645626, -2087);
  (195144240909205541958475743484846691052124766859752858375, -2088);
  (110193872737280933787963358333486949927633576130134223394, -2089);
  (622083930624776179093663337647576334528370379342649849008, -2091);
  (351099656249543997815118111286006153124627083437048375469, -2092);
  (198107887112727768884827375615819739375579626179935935884, -2093);
  (111754012234191404399064086532295465298465297142615914537, -2094);
  (630252438249662413997836122915660591306658897603655156440, -2096);
  (355349781218744526561385861693717005175137760287885519447, -2097);
  (200303128974425315746089214927719204481680650862210972356, -2098);
  (112878085149802637894965452198295588714428556916850554427, -2099);
  (635948295580700786212375881286223015235405174782691364213, -2101);
  (358198952583740508083643396355371518300807850403598523679, -2102);
  (201705249213455826683640953497307429130650604913463619541, -2103);
  (113553501307834295430106191643484893276543004740107834929, -2104);
  (639108148380727429145624244990535114394962733132435569279, -2106);
  (359615771671462904374770853401656233321339313818085221907, -2107);
  (202298988796198368036353051732041183628529235632713186855, -2108);
  (113773037905145250828013726833838726666029568607252328659, -2109);
  (639699060926804915041192380896508642817472723657914174957, -2111);
  (359586056397784103998932382628708869946145580819391117738, -2112);
  (202078820544589228018424461121006207859145530190933742402, -2113);
  (113534966141970212192170221662773935944757909493843497602, -2114);
  (637719073901528578241415036757432856990279252817315521410, -2116);
  (358113067828493502939148767576269178507360815628891001534, -2117);
  (201049027358066093798148066537189266198126426299220479516, -2118);
  (112843067506970764182770624608709254790535223115537504805, -2119);
  (633197140209998794486164631519397944369813692674310093670, -2121);
  (355217386661759977219822361287269537490751579037799313815, -2122);
  (199223583771437003686162380844821631737757342578122978098, -2123);
  (111706539776171186518590360109447734368769005170984094941, -2124);
  (626192443419887188277610013576032314333195881665677542641, -2126);
  (350936444718755425889140214072060834434167822000212915115, -2127);
  (196625845075598186295574032186556313909987961378313141563, -2128);
  (110139795864671592357887120387774606211064457211701080422, -2129);
  (616793120714312616653910854940619871318211932383996386390, -2131);
  (345323726104123516662662914240996985774613465050175434366, -2132);
  (193288053548210178608748763378529213883176780767965155181, -2133);
  (108162161619039716020825798784745783372270410728136219555, -2134);
  (605114428553789402566420115535713785388081482974467325418, -2136);
  (338447661691999072058412340051587582050798895655514073434, -2137);
  (189250676289275321141775617211101261525051458320658113250, -2138);
  (105797481352858505084672542987179560224644144436019044808, -2139);
  (591296404094766206706230671209386477017480841736209379039, -2141);
  (330390248694277752754337919428046759029057361248126763313, -2142);
  (184561593561667089101176512152242327273494143772986740892, -2143);
  (103073642315357275663183190852162766638368818440072232493, -2144);
  (575501088305864624828500535445650914624208920638426570143, -2146);
  (321245434004631412296494780081564475723661160222072621310, -2147);
  (179275160253310379056471023223077906046817208743543186516, -2148);
  (100022031265432586492231001076605679847972114759690528700, -2149);
  (557909387244113702936269176845273832981303250069469008849, -2151);
  (311117305564962004285575453629896462329273086595289453266, -2152);
  (173451165990587898160576207519092863942293707262896001557, -2153);
  (966769378405079653885904136200555156134746935302769120720, -2155);
  (538717655791018025622035369289160866524848249371294286775, -2156);
  (300118140011162958603141106258854755055086511824750724476, -2157);
  (167153721460955769235628661987211464134562315714702473810, -2158);
  (930749204213329258096683189855511292568551348806273785914, -2160);
  (518134093105015496487571965734545985147237233860596149668, -2161);
  (288366357227923217875344017715346991380426091334298762631, -2162);
  (160450099603068174070657000187339716968357021974767903176, -2163);
  (892541506807579857555104789871947497705808705134123594510, -2165);
  (496375041044558912629294342411957847573815703853017445653, -2166);
  (275984433150655247142546627959120796043557713432887588619, -2167);
  (153409560489022958041471515043937090196446960748873992846, -2168);
  (852537529686570225321657425787105248499313131381932016854, -2170);
  (473661275894598067443111364071245688639765052895318696803, -2171);
  (263096821235060833318650074268119547411445292102877630788, -2172);
  (146102187986297251734069686101248065811583982511998284020, -2173);
  (811131541486647915787421366746697485633623533092989908437, -2175);
  (450214380040359385307269251526192951331997199860371263290, -2176);
  (249827930571511538089032521984603837925753996662120401768, -2177);
  (138597764710953090207483396826508234203148973443134553707, -2178);
  (768714585058767447008253134756223377399165745776309138611, -2180);
  (426253274028288713965768557033843698923198907358221311048, -2181);
  (236300204807040122243832922483585979127017215734118142303, -2182);
  (130964709462676658860843614016144141136262069043433317279, -2183);
  (725668609446295986080134378249879533874306721901281408444, -2185);
  (401990981072268362784684817027527561717889487740566813738, -2186)].

(** ballvol.const:1-2050 pre_ball_vol *)
Definition pre_ball_vol : list (Z * Z) :=
  pre_ball_vol_0 ++ pre_ball_vol_1 ++ pre_ball_vol_2 ++ pre_ball_vol_3 ++ pre_ball_vol_4 ++ pre_ball_vol_5 ++ pre_ball_vol_6 ++ pre_ball_vol_7 ++ pre_ball_vol_8 ++ pre_ball_vol_9 ++ pre_ball_vol_10 ++ pre_ball_vol_11 ++ pre_ball_vol_12 ++ pre_ball_vol_13 ++ pre_ball_vol_14 ++ pre_ball_vol_15.
