(** The table of factorials, fplll/factorial.const (generated from that file).

    The text "d.ddd...eK" is written as the pair of its digits, as an integer, and of the
    exponent of its last digit. *)
From Coq Require Import List ZArith.
Import ListNotations.
Local Open Scope Z_scope.

(** factorial.const:2-129 *)
Definition pre_factorial_0 : list (Z * Z) := [
  (10000000000000000000000000000000000000000000000, -46);
  (10000000000000000000000000000000000000000000000, -46);
  (20000000000000000000000000000000000000000000000, -46);
  (60000000000000000000000000000000000000000000000, -46);
  (24000000000000000000000000000000000000000000000, -45);
  (12000000000000000000000000000000000000000000000, -44);
  (72000000000000000000000000000000000000000000000, -44);
  (50400000000000000000000000000000000000000000000, -43);
  (40320000000000000000000000000000000000000000000, -42);
  (36288000000000000000000000000000000000000000000, -41);
  (36288000000000000000000000000000000000000000000, -40);
  (39916800000000000000000000000000000000000000000, -39);
  (47900160000000000000000000000000000000000000000, -38);
  (62270208000000000000000000000000000000000000000, -37);
  (87178291200000000000000000000000000000000000000, -36);
  (13076743680000000000000000000000000000000000000, -34);
  (20922789888000000000000000000000000000000000000, -33);
  (35568742809600000000000000000000000000000000000, -32);
  (64023737057280000000000000000000000000000000000, -31);
  (12164510040883200000000000000000000000000000000, -29);
  (24329020081766400000000000000000000000000000000, -28);
  (51090942171709440000000000000000000000000000000, -27);
  (11240007277776076800000000000000000000000000000, -25);
  (25852016738884976640000000000000000000000000000, -24);
  (62044840173323943936000000000000000000000000000, -23);
  (15511210043330985984000000000000000000000000000, -21);
  (40329146112660563558400000000000000000000000000, -20);
  (10888869450418352160768000000000000000000000000, -18);
  (30488834461171386050150400000000000000000000000, -17);
  (88417619937397019545436160000000000000000000000, -16);
  (26525285981219105863630848000000000000000000000, -14);
  (82228386541779228177255628800000000000000000000, -13);
  (26313083693369353016721801216000000000000000000, -11);
  (86833176188118864955181944012800000000000000000, -10);
  (29523279903960414084761860964352000000000000000, -8);
  (10333147966386144929666651337523200000000000000, -6);
  (37199332678990121746799944815083520000000000000, -5);
  (13763753091226345046315979581580902400000000000, -3);
  (52302261746660111176000722410007429120000000000, -2);
  (20397882081197443358640281739902897356800000000, 0);
  (81591528324789773434561126959611589427200000000, 1);
  (33452526613163807108170062053440751665152000000, 3);
  (14050061177528798985431426062445115699363840000, 5);
  (60415263063373835637355132068513997507264512000, 6);
  (26582715747884487680436258110146158903196385280, 8);
  (11962222086548019456196316149565771506438373376, 10);
  (55026221598120889498503054288002548929616517529, 11);
  (25862324151116818064296435515361197996919763238, 13);
  (12413915592536072670862289047373375038521486354, 15);
  (60828186403426756087225216332129537688755283137, 16);
  (30414093201713378043612608166064768844377641568, 18);
  (15511187532873822802242430164693032110632597200, 20);
  (80658175170943878571660636856403766975289505440, 21);
  (42748832840600255642980137533893996496903437883, 23);
  (23084369733924138047209274268302758108327856457, 25);
  (12696403353658275925965100847566516959580321051, 27);
  (71099858780486345185404564746372494973649797888, 28);
  (40526919504877216755680601905432322134980384796, 30);
  (23505613312828785718294749105150746838288623181, 32);
  (13868311854568983573793901972038940634590287677, 34);
  (83209871127413901442763411832233643807541726063, 35);
  (50758021387722479880085681217662522722600452898, 37);
  (31469973260387937525653122354950764088012280797, 39);
  (19826083154044400641161467083618981375447736902, 41);
  (12688693218588416410343338933516148080286551617, 43);
  (82476505920824706667231703067854962521862585513, 44);
  (54434493907744306400372924024784275264429306438, 46);
  (36471110918188685288249859096605464427167635314, 48);
  (24800355424368305996009904185691715810473992013, 50);
  (17112245242814131137246833888127283909227054489, 52);
  (11978571669969891796072783721689098736458938142, 54);
  (85047858856786231752116764423992601028858460812, 55);
  (61234458376886086861524070385274672740778091784, 57);
  (44701154615126843408912571381250511100768007002, 59);
  (33078854415193864122595302822125378214568325182, 61);
  (24809140811395398091946477116594033660926243886, 63);
  (18854947016660502549879322608611465582303945353, 65);
  (14518309202828586963407078408630828498374037922, 67);
  (11324281178206297831457521158732046228731749579, 69);
  (89461821307829752868514417153983165206980821677, 70);
  (71569457046263802294811533723186532165584657342, 72);
  (57971260207473679858797342315781091054123572447, 74);
  (47536433370128417484213820698940494664381329406, 76);
  (39455239697206586511897471180120610571436503407, 78);
  (33142401345653532669993875791301312880006662862, 80);
  (28171041143805502769494794422606115948005663433, 82);
  (24227095383672732381765523203441259715284870552, 84);
  (21077572983795277172136005186993895952297837380, 86);
  (18548264225739843911479684564554628438022096894, 88);
  (16507955160908461081216919262453619309839666236, 90);
  (14857159644817614973095227336208257378855699612, 92);
  (13520015276784029625516656875949514214758686647, 94);
  (12438414054641307255475324325873553077577991715, 96);
  (11567725070816415747592051623062404362147532295, 98);
  (10873661566567430802736528525678660100418680358, 100);
  (10329978488239059262599702099394727095397746340, 102);
  (99167793487094968920957140154189380115818364865, 103);
  (96192759682482119853328425949563698712343813919, 105);
  (94268904488832477456261857430572424738096937640, 107);
  (93326215443944152681699238856266700490715968264, 109);
  (93326215443944152681699238856266700490715968264, 111);
  (94259477598383594208516231244829367495623127947, 113);
  (96144667150351266092686555869725954845535590505, 115);
  (99029007164861804075467152545817733490901658221, 117);
  (10299016745145627623848583864765044283053772454, 120);
  (10813967582402909005041013058003296497206461077, 122);
  (11462805637347083545343473841483494287038848742, 124);
  (12265202031961379393517517010387338887131568154, 126);
  (13246418194518289744998918371218325998102093606, 128);
  (14438595832024935822048821024627975337931282031, 130);
  (15882455415227429404253703127090772871724410234, 132);
  (17629525510902446638721610471070757887614095360, 134);
  (19745068572210740235368203727599248834127786803, 136);
  (22311927486598136465966070212187151182564399087, 138);
  (25435597334721875571201320041893352348123414960, 140);
  (29250936934930156906881518048177355200341927204, 142);
  (33931086844518982011982560935885732032396635556, 144);
  (39699371608087208954019596294986306477904063601, 146);
  (46845258497542906565743123628083841643926795049, 148);
  (55745857612076058813234317117419771556272886109, 150);
  (66895029134491270575881180540903725867527463331, 152);
  (80942985252734437396816228454493508299708230630, 154);
  (98750442008336013624115798714482080125644041369, 156);
  (12146304367025329675766243241881295855454217088, 159);
  (15061417415111408797950141619932806860763229189, 161);
  (18826771768889260997437677024916008575954036487, 163);
  (23721732428800468856771473051394170805702085973, 165);
  (30126600184576595448099770775270596923241649186, 167)].
(** factorial.const:130-257 *)
Definition pre_factorial_128 : list (Z * Z) := [
  (38562048236258042173567706592346364061749310959, 169);
  (49745042224772874403902341504126809639656611137, 171);
  (64668554892204736725073043955364852531553594478, 173);
  (84715806908788205109845687581527956816335208766, 175);
  (11182486511960043074499630760761690299756247557, 178);
  (14872707060906857289084508911813048098675809251, 180);
  (19929427461615188767373241941829484452225584396, 182);
  (26904727073180504835953876621469804010504538935, 184);
  (36590428819525486576897272205198933454286172951, 186);
  (50128887482749916610349262921122538832372056943, 188);
  (69177864726194884922281982831149103588673438582, 190);
  (96157231969410890041971956135297253988256079629, 192);
  (13462012475717524605876073858941615558355851148, 195);
  (18981437590761709694285264141107677937281750118, 197);
  (26953641378881627765885075080372902670940085168, 199);
  (38543707171800727705215657364933250819444321791, 201);
  (55502938327393047895510546605503881179999823379, 203);
  (80479260574719919448490292577980627710999743900, 205);
  (11749972043909108239479582716385171645805962609, 208);
  (17272458904546389112034986593086202319334765035, 210);
  (25563239178728655885811780157767579432615452253, 212);
  (38089226376305697269859552435073693354597023857, 214);
  (57133839564458545904789328652610540031895535786, 216);
  (86272097742332404316231886265441915448162259036, 218);
  (13113358856834525456067246712347171148120663373, 221);
  (20063439050956823947782887469891171856624614961, 223);
  (30897696138473508879585646703632404659201907040, 225);
  (47891429014633938763357752390630227221762955913, 227);
  (74710629262828944470838093729383154465950211224, 229);
  (11729568794264144281921580715513155251154183162, 232);
  (18532718694937347965436097530510785296823609396, 234);
  (29467022724950383265043395073512148621949538940, 236);
  (47147236359920613224069432117619437795119262304, 238);
  (75907050539472187290751785709367294850142012310, 240);
  (12296942187394494341101789284917501765723005994, 243);
  (20044015765453025775995916534415527878128499770, 245);
  (32872185855342962272633303116441465720130739623, 247);
  (54239106661315887749844950142128418438215720379, 249);
  (90036917057784373664742617235933174607438095829, 251);
  (15036165148649990402012017078400840159442162003, 254);
  (25260757449731983875380188691713411467862832166, 256);
  (42690680090047052749392518888995665380688186360, 258);
  (72574156153079989673967282111292631147169916812, 260);
  (12410180702176678234248405241031039926166055775, 263);
  (21345510807743886562907257014573388673005615933, 265);
  (36927733697396923753829554635211962404299715564, 267);
  (64254256633470647331663425065268814583481505081, 269);
  (11244494910857363283041099386422042552109263389, 272);
  (19790311043108959378152334920102794891712303565, 274);
  (35028850546302858099329632808581946958330777310, 276);
  (62351353972419087416806746399275865585828783612, 278);
  (11160892361063016647608407605470379939863352266, 281);
  (20089606249913429965695133689846683891754034079, 283);
  (36362187312343308237908191978622497844074801684, 285);
  (66179180908464820992992909401092946076216139065, 287);
  (12110790106249062241717702420400009131947553449, 290);
  (22283853795498274524760572453536016802783498346, 292);
  (41225129521671807870807059039041631085149471940, 294);
  (76678740910309562639701129812617433818378017809, 296);
  (14338924550227888213624111274959460124036689330, 299);
  (26957178154428429841613329196923785033188975941, 301);
  (50949066711869732400649192182185953712727164528, 303);
  (96803226752552491561233465146153312054181612604, 305);
  (18489416309737525888195591842915282602348688007, 308);
  (35499679314696049705335536338397342596509480974, 310);
  (68514381077363375931297585133106871211263298280, 312);
  (13291789929008494930671731515822733014985079866, 315);
  (25918990361566565114809876455854329379220905739, 317);
  (50801221108670467625027357853474485583272975249, 319);
  (10007840558408082122130389497134473659904776124, 322);
  (19815524305648002601818171204326257846611456725, 324);
  (39432893368239525177618160696609253114756798884, 326);
  (78865786736479050355236321393218506229513597768, 328);
  (15852023134032289121402500600036919752132233151, 331);
  (32021086730745224025233051212074577899307110966, 333);
  (65002806063412804771223093960511393135593435261, 335);
  (13260572436936212173329511167944324199661060793, 338);
  (27184173495719234955325497894285864609305174626, 340);
  (55999397401181624007970525662228881095168659729, 342);
  (11591875262044596169649898812081378386699912564, 345);
  (24111100545052760032871789529129267044335818133, 347);
  (50392200139160268468702040115880168122661859898, 349);
  (10582362029223656378427428424334835305758990578, 352);
  (22328783881661914958481873975346502495151470121, 354);
  (47337021829123259711981572827734585289721116656, 356);
  (10082785649603254318652075012307466666710597847, 359);
  (21577161290150964241915440526337978666760679394, 361);
  (46390896773824573120118197131626654133535460698, 363);
  (10020433703146107793945530580431357292843659510, 366);
  (21744341135827053912861801359536045325470741138, 368);
  (47402663676102977530038726963788578809526215681, 370);
  (10381183345066552079078481205069698759286241234, 373);
  (22838603359146414573972658651153337270429730715, 375);
  (50473313423713576208479575619048875367649704881, 377);
  (11205075580064413918282465787428850331618234483, 380);
  (24987318543543643037769898705966336239508662898, 382);
  (55971593537537760404604573101364593176499404892, 384);
  (12593608545945996091036028947807033464712366100, 387);
  (28461555313837951165741425422043895630249947387, 389);
  (64607730562412149146233035708039643080667380570, 391);
  (14730562568229970005341132141433038622392162770, 394);
  (33732988281246631312231192603881658445278052743, 396);
  (77585873046867252018131742988927814424139521309, 398);
  (17922336673826335216188432630442325131976229422, 401);
  (41579821083277097701557163702626194306184852260, 403);
  (96880983124035637644628191427119032733410705766, 405);
  (22670150051024339208842996793945853659618105149, 408);
  (53274852619907197140781042465772756100102547101, 410);
  (12572865218298098525224326021922370439624201115, 413);
  (29797690567366493504781652671956017941909356644, 415);
  (70918503550332254541380333359255322701744268814, 417);
  (16949522348529408835389899672862022125716880246, 420);
  (40678853636470581204935759214868853101720512591, 422);
  (98036037263894100703895179707833935975146435346, 424);
  (23724721017862372370342633489295812505985437353, 427);
  (57651072073405564859932599378988824389544612769, 429);
  (14066861585910957825823554248473273151048885515, 432);
  (34463810885481846673267707908759519220069769513, 434);
  (84780974778285342816238561455548417281371633003, 436);
  (20940900770236479675610924679520459068498793351, 439);
  (51933433910186469595515093205210738489877007512, 441);
  (12931425043636430929283258208097473883979374870, 444);
  (32328562609091077323208145520243684709948437176, 446);
  (81144692148818604081252445255811648621970577313, 448);
  (20448462421502288228475616204464535452736585483, 451);
  (51734609926400789218043308997295274695423561272, 453);
  (13140590921305800461383000485312999772637584563, 456);
  (33508506849329791176526651237548149420225840635, 458)].
(** factorial.const:258-385 *)
Definition pre_factorial_256 : list (Z * Z) := [
  (85781777534284265411908227168123262515778152027, 460);
  (22045916826311056210860414382207678466554985071, 463);
  (56878465411882525024019869106095810443711861483, 465);
  (14731522541677573981221146098478814904921372124, 468);
  (38301958608361692351174979856044918752795567523, 470);
  (99968111967824017036566697424277237944796431235, 472);
  (26191645335569892463580474725160636341536664983, 475);
  (68884027232548817179216648527172473578241428906, 477);
  (18185383189392887735313195211173533024655737231, 480);
  (48191265451891152498579967309609862515337703663, 482);
  (12818876610203046564622271304356223429079829174, 485);
  (34226400549242134327541464382631116555643143895, 487);
  (91726753471968919997811124545451392369123625640, 489);
  (24674496683959639479411192502726424547294255297, 492);
  (66621141046691026594410219757361346277694489302, 494);
  (18054329223653268207085169554244924841255206601, 497);
  (49107775488336889523271661187546195568214161954, 499);
  (13406422708315970839853163504200111390122466213, 502);
  (36733598220785760101197668001508305208935557425, 504);
  (10101739510716084027829358700414783932457278292, 507);
  (27880801049576391916809030013144803653582088085, 509);
  (77229818907326605609561013136411106120422383998, 511);
  (21469889656236796359457961651922287501477422751, 514);
  (59900992140900661842887713008863182129122009476, 516);
  (16772277799452185316008559642481690996154162653, 519);
  (47130100616460640737984052595373551699193197056, 521);
  (13290688373841900688111502831895341579172481569, 524);
  (37612648097972578947355553014263816669058122842, 526);
  (10681992059824212421048977056050923934012506887, 529);
  (30443677370499005399989584609745133211935644628, 531);
  (87068917279627155443970211983871080986135943638, 533);
  (24988779259252993612419450839371000243021015824, 536);
  (71967684266648621603768018417388480699900525573, 538);
  (20798660753061451643488957322625270922271251890, 541);
  (60316116183878209766117976235613285674586630483, 543);
  (17551989809508559041940331084563466131304709470, 546);
  (51251810243764992402465766766925321103409751654, 548);
  (15016780401423142773922469662709119083299057234, 551);
  (44149334380184039755332060808364810104899228270, 553);
  (13024053642154291727822957938467618980945272339, 556);
  (38551198780776703514355955497864152183598006125, 558);
  (11449706037890680943763718782865653198528607819, 561);
  (34120123992914229212415881972939646531615251301, 563);
  (10201917073881354534512348709908954312952960139, 566);
  (30605751221644063603537046129726862938858880417, 568);
  (92123311177148631446646508850477857445965230056, 570);
  (27821239975498886696887245672844312948681499476, 573);
  (84298357125761626691568354388718268234504943415, 575);
  (25626700566231534514236779734170353543289502798, 578);
  (78161436727006180268422178189219578307032983534, 580);
  (23917399638463891162137186525901190961952092961, 583);
  (73426416890084145867761162634516656253192925392, 585);
  (22615336402145916927270438091431130125983421020, 588);
  (69881389482630883305265653702522192089288770954, 590);
  (21663230739615573824632352647781879547679518995, 593);
  (67372647600204434594606616734601645393283304076, 595);
  (21020266051263783593517264421195713362704390872, 598);
  (65793432740455642647709037638342582825264743429, 600);
  (20659137880503071791380637818439571007133129436, 603);
  (65076284323584676142849009128084648672469357725, 605);
  (20564105846252757661140286884474748980500317041, 608);
  (65188215532621241785814709423784954268186005021, 610);
  (20729852539373554887889077596763615457283149596, 613);
  (66128229600601640092366157533675933308733247213, 615);
  (21161033472192524829557170410776298658794639108, 618);
  (67926917445738004702878517018591918694730791537, 620);
  (21872467417527637514326882479986597819703314875, 623);
  (70648069758614269171275830410356710957641707046, 625);
  (22889974601791023211493369052955574350275913083, 628);
  (74392417455820825437353449422105616638396717520, 630);
  (24251928090597589092577224511606431024117329911, 633);
  (79303804856254116332727524152953029448863668811, 635);
  (26011647992851350157134627922168593659227283370, 638);
  (85578321896480942016972925863934673138857762287, 640);
  (28240846225838710865601065535098442135823061554, 643);
  (93477201007526132965139526921175843469574333746, 645);
  (31034430734498676144426322937830380031898678803, 648);
  (10334465434588059156093965538297516550622260041, 651);
  (34517114551524117581353844897913705279078348539, 653);
  (11563233374760579389753538040801091268491246760, 656);
  (38852464139195546749571887817091666662130589115, 658);
  (13093280414908899254605726194359891665138008532, 661);
  (44255287802392079480567354536936433828166468838, 663);
  (15002542565010914943912333188021451067748432936, 666);
  (51008644721037110809301932839272933630344671982, 668);
  (17393947849873654785971959098192070367947533146, 671);
  (59487301646567899368024100115816880658380563359, 673);
  (20404144464772789483232266339725190065824533232, 676);
  (70190256958818395822318996208654653826436394319, 678);
  (24215638650792346558700053691985855570120556040, 681);
  (83786109731741519093102185774271060272617123899, 683);
  (29073780076914307125306458463672057914598141993, 686);
  (10117675466766178879606647545357876154280153413, 689);
  (35310687379013964289827199933298987778437735413, 691);
  (12358740582654887501439519976654645722453207394, 694);
  (43379179445118655130052715118057806485810757955, 696);
  (15269471164681766605778555721556347883005386800, 699);
  (53901233211326636118398301697093908027009015405, 701);
  (19081036556809629185912998800771243441561191453, 704);
  (67737679776674183609991145742737914217542229659, 706);
  (24114614000496009365156847884414697461445033758, 709);
  (86089171981770753433609946947360469937358770518, 711);
  (30819923569473929729232361007155048237574439845, 714);
  (11064352561441140772794417601568662317289223904, 717);
  (39831669221188106782059903365647184342241206056, 719);
  (14379232588848906548323625114998633547549075386, 722);
  (52052821971633041704931522916295053442127652898, 724);
  (18895174375702794138890142818615104399492338002, 727);
  (68778434727558170665560119859758980014152110328, 729);
  (25104128675558732292929443748812027705165520269, 732);
  (91881110952544960192121764120652021400905804187, 734);
  (33720367719584000390508687432279291854132430136, 737);
  (12409095320806912143707196975078779402320734290, 740);
  (45789561733777505810279556838040695994563509531, 742);
  (16942137841497677149803436030075057517988498526, 745);
  (62855331391956382225770747671578463391737329533, 747);
  (23382183277807774187986718133827188381726286586, 750);
  (87215543626222997721190458639175412663839048968, 752);
  (32618613316207401147725231531051604336275804314, 755);
  (12231979993577775430396961824144351626103426617, 758);
  (45992244775852435618292576458782762114148884082, 760);
  (17339076280496368228096301324961101317034129299, 763);
  (65541708340276271902204019008352962978389008751, 765);
  (24840307460964707050935323204165772968809434316, 768);
  (94393168351665886793554228175829937281475850403, 770);
  (35963797141984702868344160934991206104242299003, 773);
  (13738170508238156495707469477166640731820558219, 776);
  (52617193046552139378559608097548234002872737980, 778)].
(** factorial.const:386-513 *)
Definition pre_factorial_384 : list (Z * Z) := [
  (20205002129876021521366889509458521857103131384, 781);
  (77789258200022682857262524611415309149847055830, 783);
  (30026653665208755582903334500006309331840963550, 786);
  (11620314968435788410583590451502441711422452894, 789);
  (45086822077530859033064330951829473840319117228, 791);
  (17538773788159504163862024740261665323884136601, 794);
  (68401217773822066239061896487020494763148132747, 796);
  (26744876149564427899473201526425013452390919904, 799);
  (10483991450629255736593494998358605273337240602, 802);
  (41202086400972975044812435343549318724215355567, 804);
  (16233622041983352167656099525358431577340850093, 807);
  (64122807065834241062241593125165804730496357870, 809);
  (25392631598070359460647670877565658673276557716, 812);
  (10080874744433932705877125338393566493290793413, 815);
  (40121881482847052169390958846806394643297357785, 817);
  (16008630711655973815586992579875751462675645756, 820);
  (64034522846623895262347970319503005850702583026, 822);
  (25677843661496182000201536098120705346131735793, 825);
  (10322493151921465164081017511444523549144957788, 828);
  (41599647402243504611246500571121429903054179889, 830);
  (16806257550506375862943586230733057680833888675, 833);
  (68065343079550822244921524234468883607377249135, 835);
  (27634529290297633831438138839194366744595163148, 838);
  (11247253421151136969395322507552107265050231401, 841);
  (45888793958296638835132915830812597641404944118, 843);
  (18768516728943325283569362574802352435334622144, 846);
  (76950918588667633662634386556689644984871950792, 848);
  (31626827539942397435342732874799444088782371775, 851);
  (13030252946456267743361205944417370964578337171, 854);
  (53814944668864385780081780550443742083708532518, 856);
  (22279387092909855712953857147883709222655332462, 859);
  (92459456435575901208758507163717393274019629720, 861);
  (38463133877199574902843538980106435601992165963, 864);
  (16039126826792222734485755754704383646030733206, 867);
  (67043550135991491030150459054664323640408464804, 869);
  (28091247506980434741633042343904351605331146753, 872);
  (11798323952931782591485877784439827674239081636, 875);
  (49670943841842804710155545472491674508546533688, 877);
  (20961138301257663587685640189391486642606637216, 880);
  (88665615014319916975910258001125988498226075426, 882);
  (37594220766071644797785949392477419123247855980, 885);
  (15977543825580449039059028491802903127380338791, 888);
  (68064336696972712906391461375080367322640243253, 890);
  (29063471769607348411029154007159316846767383869, 893);
  (12439165917391945119920477915064187610416440296, 896);
  (53364021785611444564458850255625364848686528869, 898);
  (22946529367812921162717305609918906884935207414, 901);
  (98899541575273690211311587178750488674070743954, 903);
  (42724601960518234171286605661220211107198561388, 906);
  (18499752648904395396167100251308351409416977081, 909);
  (80288926496245076019365215090678245116869680532, 911);
  (34925683025866608068423868564445036625838311031, 914);
  (15227597799277841117832806694098035968865503609, 917);
  (66544602382844165684929365253208417183942250774, 919);
  (29146535843685744569999061980905286726566705839, 922);
  (12795329235378041866229588209617420872962783863, 925);
  (56299448635663384211410188122316651841036248999, 927);
  (24828056848327552437231892961941643461896985808, 930);
  (10974001126960778177256496689178206410158467727, 933);
  (48614824992436247325246280333059454397002012032, 935);
  (21584982296641693812409348467878397752268893342, 938);
  (96053171220055537465221600682058869997596575373, 940);
  (42839714364144769709488833904198256018928072616, 943);
  (19149352320772712060141508755176620440460848459, 946);
  (85789098397061750029433959223191259573264601099, 948);
  (38519305180280725763215847691212875548395805893, 951);
  (17333687331126326593447131461045793996778112652, 954);
  (78174929863379732936446562889316530925469288060, 956);
  (35335068298247639287273846425971071978312118203, 959);
  (16006785939106180597135052430964895606175389546, 962);
  (72670808163542059910993138036580626052036268539, 964);
  (33065217714411637259501877806644184853676502185, 967);
  (15077739277771706590332856279829748293276484996, 970);
  (68905268499416699117821153198821949700273536434, 972);
  (31558612972732848195962088165060452962725279687, 975);
  (14485403354484377321946598467762747909890903376, 978);
  (66632855430628135680954352951708640385498155531, 980);
  (30717746353519570548919956710737683217714649699, 983);
  (14191598815326041593601020000360809646584168161, 986);
  (65707102514959572578372722601670548663684698587, 988);
  (30488095566941241676364943287175134579949700144, 991);
  (14176964438627677379509698628536437579676610567, 994);
  (66064654284004976588515195608979799121293005242, 996);
  (30852193550630324066836596349393566189643833448, 999);
  (14438826581694991663279527091516188976753314053, 1002);
  (67718096668149510900780982059210926300973042912, 1004);
  (31827505434030270123367061567829135361457330168, 1007);
  (14990755059428257228105885998447522755246402509, 1010);
  (70756363880501374116659781912672307404763019845, 1012);
  (33467760115477149957180076844694001402452908386, 1015);
  (15863718294736169079703356424384956664762678575, 1018);
  (75352661899996803128590943015828544157622723232, 1020);
  (35867867064398478289209288875534387019028416258, 1023);
  (17108972589718074143952830793629902608076554555, 1026);
  (81780888978852394408094531193550934466605930775, 1028);
  (39173045820870296921477280441710897609504240841, 1031);
  (18803061994017742522309094612021230852562035603, 1034);
  (90442728191225341532306745083822120400823391254, 1036);
  (43593394988170614618571851130402262033196874584, 1039);
  (21055609779286406860770204095984292562034090424, 1042);
  (10190915133174620920612778782456397600024499765, 1045);
  (49425938395896911464971977094913528360118823862, 1047);
  (24021006060405898971976380868127974783017748396, 1050);
  (11698229951417672799352497482778323719329643469, 1053);
  (57087362162918243260840187715958219750328660130, 1055);
  (27915720097667020954550851793103569457910714803, 1058);
  (13678702847856840267729917378620749034376250253, 1061);
  (67162430982977085714553894329027877758787388746, 1063);
  (33043916043624726171560516009881715857323395263, 1066);
  (16290650609506990002579334392871685917660433864, 1069);
  (80475814010964530612741911900786128433242543291, 1071);
  (39835527935427442653307246390889133574455058929, 1074);
  (19758421855972011556040394209881010252929709229, 1077);
  (98199356624180897433520759223108620957060654868, 1079);
  (48903279598842086921893338093108093236616206124, 1082);
  (24402736519822201374024775708460938525071486856, 1085);
  (12201368259911100687012387854230469262535743428, 1088);
  (61128854982154614441932063149694651005304074574, 1090);
  (30686685201041616449849895701146714804662645436, 1093);
  (15435402656123933074274497537676797546745310654, 1096);
  (77794429386864622694343467589891059635596365698, 1098);
  (39286186840366634460643451132894985115976164677, 1101);
  (19878810541225517037085586273244862468683939326, 1104);
  (10078556944401337137802392240535145271622757238, 1107);
  (51199069277558792660036152581918537979843606772, 1109);
  (26060326262277425463958401664196535831740395847, 1112);
  (13290766393761486986618784848740233274187601882, 1115);
  (67915816272121198501621990577062592031098645618, 1117)].
(** factorial.const:514-641 *)
Definition pre_factorial_512 : list (Z * Z) := [
  (34772897931326053632830459175456047119922506556, 1120);
  (17838496638770265513642025557008952172520245863, 1123);
  (91689872723279164740120011363026014166754063738, 1125);
  (47220284452488769841161805851958397295878342825, 1128);
  (24365666777484205238039491819610533004673224897, 1131);
  (12597049723959334108066417270738645563416057272, 1134);
  (65252717570109350679784041462426184018495176669, 1136);
  (33866160418886753002807917518999189505598996691, 1139);
  (17610403417821111561460117109879578542911478279, 1142);
  (91750201806847991235207210142472604208568801836, 1144);
  (47893605343174651424778163694370699396872914558, 1147);
  (25048355594480342695158979612155875784564534314, 1150);
  (13125338331507699572263305316769678911111815980, 1153);
  (68908026240415422754382352913040814283337033898, 1155);
  (36245621802458512368805117632259468313035279830, 1158);
  (19101442689895636018360296992200739800969592470, 1161);
  (10085561740264895817694236811881990614911944824, 1164);
  (53352621606001298875602512734855730352884188121, 1166);
  (28276889451180688404069331749473537087028619704, 1169);
  (15015028298576945542560815158970448193212197063, 1172);
  (79879950548429350286423536645722784387888888375, 1174);
  (42576013642312843702663745032170244078744777504, 1177);
  (22735591284995058537222439847178910338049711187, 1180);
  (12163541337472356317414005318240717030856595485, 1183);
  (65196581568851829861339068505770243285391351800, 1185);
  (35010564302473432635539079787598620644255155917, 1188);
  (18835683594730706757920024925728057906609273883, 1191);
  (10152433457559850942518893434967423211662398623, 1194);
  (54823140670823195089602024548824085342976952564, 1196);
  (29659319102915348543474695280913830170550531337, 1199);
  (16075350953780118910563284842255295952438387984, 1202);
  (87289155679026045684358636693446257021740446758, 1204);
  (47485300689390168852291098361234763819826803036, 1207);
  (25879488875717642024498648606872946281805607654, 1210);
  (14130200926141832545376262139352628669865861779, 1213);
  (77292199065995824023208153902258878824166263934, 1215);
  (42356125088165711564718068338437865595643112636, 1218);
  (23253512673402975649030219517802388212008068837, 1221);
  (12789431970371636606966620734791313516604437860, 1224);
  (70469770156747717704386080248700137476490452611, 1226);
  (38899313126524740172821116297282475887022729841, 1229);
  (21511320158968181315570077312397209165523569602, 1232);
  (11917271368068372448825822831068053877700057559, 1235);
  (66140856092779467090983316712427699021235319456, 1237);
  (36774315987585383702586724092109800655806837617, 1240);
  (20483294005085058722340805319305158965284408553, 1243);
  (11429678054837462767066169368172278702628699972, 1246);
  (63891900326541416867899886768083037947694432846, 1248);
  (35779464182863193446023936590126501250708882394, 1251);
  (20072279406586251523219428427060967201647683023, 1254);
  (11280621026501473356049318776008263567325997858, 1257);
  (63509896379203294994557664708926523884045367946, 1259);
  (35819581557870658376930522895834559470601587521, 1262);
  (20238063580196921982965745436146526100889896949, 1265);
  (11454743986391457842358611916858933773103681673, 1268);
  (64948398402839565966173329568590154493497875088, 1270);
  (36890690292812873468786451194959207752306793050, 1273);
  (20990802776610525003739490729931789211062565245, 1276);
  (11964757582667999252131509716061119850305662190, 1279);
  (68318765797034275729670920478708994345245331105, 1281);
  (39078334035903605717371766513821544765480329392, 1284);
  (22391885402572766076054022212419745150620228741, 1287);
  (12852942221076767727655008749928933716456011297, 1290);
  (73904417771191414434016300312091368869622064962, 1292);
  (42568944636206254713993388979764628468902309418, 1295);
  (24562281055091008969974185441324190626556632534, 1298);
  (14196998449842603184645079185085382182149733604, 1301);
  (82200621024588672439095008481644362834646957571, 1303);
  (47676360194261430014675104919353730444095235391, 1306);
  (27699965272865890838526235958144517388019331762, 1309);
  (16121379788807948468022269327640109119827251085, 1312);
  (93987644168750339568569830180141836168592873830, 1314);
  (54888784194550198308044780825202832322458238316, 1317);
  (32109938753811866010206196782743656908638069415, 1320);
  (18816424109733753481980831314687782948461908677, 1323);
  (11045240952413713293922747981721728590747140393, 1326);
  (64946016800192634168265758132523764113593185514, 1328);
  (38253203895313461525108531540056497062906386268, 1331);
  (22569390298234942299814033608633333267114767898, 1334);
  (13338509666256850899190093862702299960864827827, 1337);
  (78963977224240557323205355667197615768319780740, 1339);
  (46825638493974650492660775910648186150613629979, 1342);
  (27814429265420942392640500890925022573464496207, 1345);
  (16549585412925460723621098030100388431211375243, 1348);
  (98635529061035745912781744259398315050019796451, 1350);
  (58885410849438340309930701322860794084861818481, 1353);
  (35213475687964127505338559391070754862747367452, 1356);
  (21092871937090512375697797075251382162785673103, 1359);
  (12655723162254307425418678245150829297671403862, 1362);
  (76060896205148387626766256253356484079005137212, 1364);
  (45788659515499329351313286264520603415561092601, 1367);
  (27610561687846095598841911617505923859583338838, 1370);
  (16676779259459041741700514616973578011188336658, 1373);
  (10089451451972720253728811343269014696768943678, 1376);
  (61142075798954684737596596740210229062419798691, 1378);
  (37113240009965493635721134221307609040888817805, 1381);
  (22564849926059020130518449606555026296860401225, 1384);
  (13741993604969943259485735810392011014787984346, 1387);
  (83826160990316653882862988443391267190206704514, 1389);
  (51217784365083475522429285938912064253216296458, 1392);
  (31345284031431087019726722994614183322968373432, 1395);
  (19214659111267256343092481195698494376979612914, 1398);
  (11797800694318095394658783454158875547465482329, 1401);
  (72556474270056286677151518243077084616912716324, 1403);
  (44694788150354672593125335237735484124018233256, 1406);
  (27576684288768832989958331841682793704519249919, 1409);
  (17042390890459138787794249078159966509392896449, 1412);
  (10549239961194206909644640179381019269314202902, 1415);
  (65405287759404082839796769112162319469748057995, 1417);
  (40616683698589935443513793618652800390713544015, 1420);
  (25263577260522939845865579630802041843023824377, 1423);
  (15739208633305791523974256109989672068203842587, 1426);
  (98212661871828139109599358126335553705591977744, 1428);
  (61382913669892586943499598828959721065994986090, 1431);
  (38425703957352759426630748866928785387312861292, 1434);
  (24092916381260180160497479539564348437845164030, 1437);
  (15130351487431393140792417150846410818966763011, 1440);
  (95169910855943462855584303878823924051300939339, 1442);
  (59957043839244381599018111443659072152319591783, 1445);
  (37832894662563204788980428320948874528113662415, 1448);
  (23910389426739945426635630698839688701767834646, 1451);
  (15135276507126385455060354232365522948219039331, 1454);
  (95957653055181283785082645833197415491708709360, 1456);
  (60933109690040115203527480104080358837235030444, 1459);
  (38753457762865513269443477346195108220481479362, 1462);
  (24685952594945331952635495069526283936446702353, 1465);
  (15749637755575121785781445854357769151452996101, 1468);
  (10064018525812502821114343900934614487778464509, 1471)].
(** factorial.const:642-769 *)
Definition pre_factorial_640 : list (Z * Z) := [
  (64409718565200018055131800965981532721782172857, 1473);
  (41286629600293211573339484419194162474662372801, 1476);
  (26506016203388241830083948997122652308733243338, 1479);
  (17043368418778639496743979205149865434515475466, 1482);
  (10975929261693443835903122608116513339827966200, 1485);
  (70794743737922712741575140822351511041890381994, 1487);
  (45733404454698072431057540971239076133061186768, 1490);
  (29589512682189652862894229008391682258090587839, 1493);
  (19174004218058895055155460397437810103242700919, 1496);
  (12443928737520222890795893797937138757004512896, 1499);
  (80885536793881448790173309686591401920529333829, 1501);
  (52656484452816823162402824605971002650264596323, 1504);
  (34332027863236568701886641643093093727972516802, 1507);
  (22418814194693479362331976992939790204366053472, 1510);
  (14661904483329535502965112953382622793655398970, 1513);
  (96035474365808457544421489844656179298442863258, 1515);
  (62999271183970348149140497338094453619778518297, 1518);
  (41390521167868518733985306751128056028194486521, 1521);
  (27234962928457485326962331842242260866551972131, 1524);
  (17947840569853482830468176684037649911057749634, 1527);
  (11845574776103298668108996611464848941298114758, 1530);
  (78299249270042804196200467601782651501980538555, 1532);
  (51834103016768336377884709552380115294311116523, 1535);
  (34366010300117407018537562433228016440128270255, 1538);
  (22819030839277958260308941455663402916245171449, 1541);
  (15174655508119842243105446068016162939303039013, 1544);
  (10106320568407814933908227081298764517575823983, 1547);
  (67409158191280125609167874632262759332230745968, 1549);
  (45029317671775123906924140254351523233930138306, 1552);
  (30124613522417557893732249830161169043499262527, 1555);
  (20183491060019763788800607386207983259144505893, 1558);
  (13543122501273261502285207556145556766885963454, 1561);
  (91009783208556317295356594777298141473473674413, 1563);
  (61249584099358401539774988285121649211647782880, 1566);
  (41282219682967562637808342104171991568650605661, 1569);
  (27865498286003104780520630920316094308839158821, 1572);
  (18837076841338098831631946502133679752775271363, 1575);
  (12752701021585892909014827781944501192628858712, 1578);
  (86463312926352353923120532361583718086023662073, 1580);
  (58708589476993248313798841473515344580410066547, 1583);
  (39921840844355408853383212201990434314678845252, 1586);
  (27186773615006033429153967509555485768296293616, 1589);
  (18541379605434114798683005841516841293978072246, 1592);
  (12663762270511500407500492989756002603787023344, 1595);
  (86620133930298662787303372049931057809903239676, 1597);
  (59334791742254584009302809854202774599783719178, 1600);
  (40703667135186644630381727559983103375451631356, 1603);
  (27963419321873224861072246833708392018935270741, 1606);
  (19238832493448778704417705821591373709027466270, 1609);
  (13255555587986208527343799311076456485519924260, 1612);
  (91463333557104838838672215246427549750087477396, 1614);
  (63201163487959443637522500735281436877310446880, 1617);
  (43735205133667934997165570508814754319098829241, 1620);
  (30308497157631878953035740362608624743135488664, 1623);
  (21034097027396523993406803811650385571736029133, 1626);
  (14618697434040584175417728649097017972356540247, 1629);
  (10174613414092246586090739139771524508760152012, 1632);
  (70917055496222958705052451804207525826058259525, 1634);
  (49500104736363625176126611359336853026588665148, 1637);
  (34600573210718173998112501340176460265585476938, 1640);
  (24220401247502721798678750938123522185909833857, 1643);
  (16978501274499407980873804407624589052322793533, 1646);
  (11918907894698584402573410694152461514730601060, 1649);
  (83789922499731048350091077179891804448556125457, 1651);
  (58988105439810658038464118334643830331783512322, 1654);
  (41586614335066513917117203425923900383907376187, 1657);
  (29360149720556958825484745618702273671038607588, 1660);
  (20757625852433769889617715152422507485424295564, 1663);
  (14696399103523109081849342327915135299680401259, 1666);
  (10419746964397884339031183710491830927473404493, 1669);
  (73980203447224978807121404344491999585061171902, 1671);
  (52599924650976959931863318488933811704978493222, 1674);
  (37451146351495595471486682764120873933944687174, 1677);
  (26702667348616359571170004810818183114902561955, 1680);
  (19065704486912080733815383434924182744040429236, 1683);
  (13631978708142137724677999155970790661988906903, 1686);
  (97604967550297706108694473956750861139840573431, 1688);
  (69982761733563455279933937826990367437265691150, 1691);
  (50247622924698560890992567359779083819956766245, 1694);
  (36128040882858265280623655931681161266548914930, 1697);
  (26012189435657951002049032270810436111915218750, 1700);
  (18754788583109382672477352267254324436690872718, 1703);
  (13540957357004974289528648336957622243290810103, 1706);
  (97901121691145964113292127476203608818992557044, 1708);
  (70880412104389678018023500292771412784950611300, 1711);
  (51388298775682516563067037712259274269089193192, 1714);
  (37307904911145507024786669379100233119358754258, 1717);
  (27122846870402783607019908638605869477773814345, 1720);
  (19745432521653226465910493488905072979819336843, 1723);
  (14394420308285202093648749753411798202288296558, 1726);
  (10507926825048197528363587319990612687670456488, 1729);
  (76812945091102323932337823309131378746871036927, 1731);
  (56227075806686901118471286662284169242709599031, 1734);
  (41214446566301498519839453123454296054906136089, 1737);
  (30251403779665299913562158592615453304301103889, 1740);
  (22234781778053995436468186565572358178661311359, 1743);
  (16364799388647740641240585312261255619494725160, 1746);
  (12060857149433384852594311375136545391567612443, 1749);
  (89009125762818380212146017948507704989768979830, 1751);
  (65777743938722782976775907263947193987439276094, 1754);
  (48675530514654859402814171375320923550705064309, 1757);
  (36068568111359250817485300989112804351072452653, 1760);
  (26762877538628564106574093333921700828495759869, 1763);
  (19884818011201023131184551347103823715572349582, 1766);
  (14794304600333561209601306202245244844385828089, 1769);
  (11021756927248503101152973120672707409067441926, 1772);
  (82222306677273833134601179480218397271643116773, 1774);
  (61420063087923553351547081071723142761917408229, 1777);
  (45942207189766817906957216641648910785914221355, 1780);
  (34410713185135346612310955264595034178649751795, 1783);
  (25808034888851509959233216448446275633987313846, 1786);
  (19381834201527483979384145552783153001124472698, 1789);
  (14575139319548667952496877455692931056845603469, 1792);
  (10975079907620146968230148724136777085804739412, 1795);
  (82752102503455908140455321379991299226967735170, 1797);
  (62477837390109210646043767641893430916360640053, 1800);
  (47233245066922563248409088337271433772768643880, 1803);
  (35755566515660380379045679871314475365985863417, 1806);
  (27102719418870568327316625342456372327417284470, 1809);
  (20570964038922761360433318634924386596509718913, 1812);
  (15633932669581298633929322162542533813347386373, 1815);
  (11897422761551368260420214165694868231957361030, 1818);
  (90658361443021426144402031942594895927515091053, 1820);
  (69172329781025348148178750372199905592694014473, 1823);
  (52847659952703365985208565284360727872818227057, 1826);
  (40428459863818074978684552442535956822705943699, 1829);
  (30968200255684645433672367170982542926192752873, 1832);
  (23752609596110123047626705620143610424389841454, 1835)].
(** factorial.const:770-897 *)
Definition pre_factorial_768 : list (Z * Z) := [
  (18242004169812574500577309916270292805931398236, 1838);
  (14028101206585869790943951325611855167761245244, 1841);
  (10801637929071119739026842520721128479176158837, 1844);
  (83280628433138333187896955834759900574448184640, 1846);
  (64292645150382793221056449904434643243473998542, 1849);
  (49698214701245899159876635776127979227205400873, 1852);
  (38466418178764325949744516090723055921856980275, 1855);
  (29811474088542352611051999970310368339439159713, 1858);
  (23133703892708865626176351976960845831404787937, 1861);
  (17974887924634788591539025486098577211001520227, 1864);
  (13984462805365865524217361828184693070159182737, 1867);
  (10893896525380009243365324864155875901654003352, 1870);
  (84972392897964072098249533940415832032901226147, 1872);
  (66363438853309940308732886007464764817695857621, 1875);
  (51896209183288373321429116857837446087438160659, 1878);
  (40634731790514796310678998499686720286464079796, 1881);
  (31857629723763600307572334823754388704587838560, 1884);
  (25008239333154426241444282836647195133101453270, 1887);
  (19656476115859379025775206309604695374617742270, 1890);
  (15469646703181331293285087365658895259824163166, 1893);
  (12190081602106889059108648844139209464741440575, 1896);
  (96179743840623354676367239380258362676809966139, 1898);
  (75981997634092450194330119110404106514679873250, 1901);
  (60101760128567128103715124216329648253111779740, 1904);
  (47600594021825165458142378379333081416464529554, 1907);
  (37747271059307356208306906054811133563256371936, 1910);
  (29971333221090040829395683407520040049225559317, 1913);
  (23827209910766582459369568308978431839134319657, 1916);
  (18966459088970199637658176373946831743950918447, 1919);
  (15116267893909249111213566570035624899928882002, 1922);
  (12062781779339580790748426122888428670143247838, 1925);
  (96381626416923250518079924721878545074444550227, 1927);
  (77105301133538600414463939777502836059555640181, 1930);
  (61761346207964418931985615761779771683704067785, 1933);
  (49532599658787463983452463840947376890330662363, 1936);
  (39774677526006333578712328464280743642935521878, 1939);
  (31978840730909092197284712085281717888920159590, 1942);
  (25742966788381819218814193228651782900580728470, 1945);
  (20748831231435746290364239742293337017868067146, 1948);
  (16744306803768647256323941472030722973419530187, 1951);
  (13529399897445066983109744709400824162522980391, 1954);
  (10945284517033059189335783469905266747481091136, 1957);
  (88656804587967779433619846106232660654596838207, 1959);
  (71900668520841869120665695192154687790878035786, 1962);
  (58383342838923597725980544496029606486192965058, 1965);
  (47465657728044884951222182675272070073274880592, 1968);
  (38637045390628536350294856697671465039645752802, 1971);
  (31489191993362257125490308208602244007311288533, 1974);
  (25695180666583601814400091498219431109966011443, 1977);
  (20992962604598802682364874754045275216842231349, 1980);
  (17172243410561820594174467548809035127376945243, 1983);
  (14064067353250131066628888922474599769321718154, 1986);
  (11532535229665107474635688916429171810843808886, 1989);
  (94682114235550532366759006003883500567027670961, 1991);
  (77828697901622537605475902935192237466096745530, 1994);
  (64053018373035348449306668115663211434597621571, 1997);
  (52779687139381127122228694527306486222108440174, 2000);
  (43543241889989429875838672985027851133239463144, 2003);
  (35966717801131269077442743885633005036055796557, 2006);
  (29744475621535559527045149193418495164818143752, 2009);
  (24628425814631443288393383532150513996469423027, 2012);
  (20416965000329466486078114948152776103073151689, 2015);
  (16946080950273457183444835406966804165550715902, 2018);
  (14082193269677242919442658223189414261572644914, 2021);
  (11716384800371466108976291641693592665628440569, 2024);
  (97597485387094312687772509375307626904684909941, 2026);
  (81396302812836656781602272819006560838507214890, 2029);
  (67965912848718608412637897803870478300153524433, 2032);
  (56819503141528756632965282564035719858928346426, 2035);
  (47557924129459569301791941506097897521923025959, 2038);
  (39853540420487119074901646982110038123371495753, 2041);
  (33437120412788692903842481817990321985508684937, 2044);
  (28087181146742502039227684727111870467827295347, 2047);
  (23621319344410444214990482855501083063442755387, 2050);
  (19889150887993594029021986564331911939418800036, 2053);
  (16766554198578599766465534673731801764930048430, 2056);
  (14150971743600338202896911264629640689600960875, 2059);
  (11957571123342285781447890018612046382712811939, 2062);
  (10116105170347573771104914955745791239775038900, 2065);
  (85683410792843949841258629675166851800894579490, 2067);
  (72659532352331669465387317964541490327158603407, 2070);
  (61687942967129587376113832951895725287757654293, 2073);
  (52434751522060149269696758009111366494594006149, 2076);
  (44621973545273187028511941065753772886899499233, 2079);
  (38017921460572755348292173788022214499638373346, 2082);
  (32429287005868560312093224241182948968191532464, 2085);
  (27694611103011750506527613501970238418835568724, 2088);
  (23678892493075046683081109544184553848104411259, 2091);
  (20269131974072239960717429769821978093977376038, 2094);
  (17370646101779909646334837312737435226538611264, 2097);
  (14904014355327162476555290414328719424370128465, 2100);
  (12802548331226032567360994465908369985533940351, 2103);
  (11010191564854388007930455240681198187559188702, 2106);
  (94797749373396280748281219622265116394884614727, 2108);
  (81715659959867594005018411314392530332390537895, 2111);
  (70520614545365733626330888964320753676853034203, 2114);
  (60929810967195993853149888065173131176801021551, 2117);
  (52704286486624534682974653176374758467932883642, 2120);
  (45641912097416847035456049650740540833229877234, 2123);
  (39571537788460406379740395047192048902410303562, 2126);
  (34348094800383632737614662900962698447292143491, 2129);
  (29848494381533376848987142060936584950696872694, 2132);
  (25968190111934037858618813593014828907106279244, 2135);
  (22618293587494546974856986639515915978089569221, 2138);
  (19723152008295244962075292349657878732894104361, 2141);
  (17218311703241748851891730221251328133816553107, 2144);
  (15048804428633288496553372213373660788955667415, 2147);
  (13167703875054127434484200686701953190336208988, 2150);
  (11534908594547415632608159801550910994734519074, 2153);
  (10116114837418083509797356145960148942382173228, 2156);
  (88819488272530773216020786961530107714115480943, 2158);
  (78072330191554549656882271739184964680707507748, 2161);
  (68703650568568003698056399130482768919022606819, 2164);
  (60527916150908411257987687633955319417658916607, 2167);
  (53385622045101218729545140493148591726375164447, 2170);
  (47139504265824376138188359055450206494389270207, 2173);
  (41671321770988748506158509405017982541040114863, 2176);
  (36879119767325042427950280823440914548820501654, 2179);
  (32674900113849987591163948809568650290254964465, 2182);
  (28982636400984938993362422594087392807456153480, 2185);
  (25736581124074625826105831263549604813021064291, 2188);
  (22879820619302342359408083993295598678775726154, 2191);
  (20363040351179084699873194754033082824110396277, 2194);
  (18143468952900564467587016525843476796282363083, 2197);
  (16183974305987303505087618741052381302283867870, 2200);
  (14452289055246662030043243535759776502939494008, 2203);
  (12920346415390515854858659720969240193627907643, 2206);
  (11563710041774511690098500450267469973296977340, 2209)].
(** factorial.const:898-1025 *)
Definition pre_factorial_896 : list (Z * Z) := [
  (10361084197429962474328256403439653096074091697, 2212);
  (92938925250946763394724459938853688271784602525, 2214);
  (83459154875350193528462565025090612068062573068, 2217);
  (75029780232939823982087845957556460249188253188, 2220);
  (67526802209645841583879061361800814224269427869, 2223);
  (60841648790890903267075034286982533616066754510, 2226);
  (54879167209383594746901680926858245321692212568, 2229);
  (49555887990073386056452217876952995525488067949, 2232);
  (44798522743026340995032804960765507955041213426, 2235);
  (40542663082438838600504688489492784699312298150, 2238);
  (36731652752689587772057247771480462937576942124, 2241);
  (33315609046689456109255923728732779884382286506, 2244);
  (30250573014394026147204378745689364135019116148, 2247);
  (27497770870084169767808780279831631998732376578, 2250);
  (25022971491776594488705990054646785118846462686, 2253);
  (22795927029008477579211156939783221243269127507, 2256);
  (20789885450455731552240575129082297773861444286, 2259);
  (18981165416266082907195645092852137867535498633, 2262);
  (17348785190467199777176819614866854010927445751, 2265);
  (15874138449277487796116789947603171419998612862, 2268);
  (14540710819538178821242979592004505020718729382, 2271);
  (13333831821516509979079812285868131103999074843, 2274);
  (12240457612152156160795267678426944353471150706, 2277);
  (11248980545567831511770850996474361860839987499, 2280);
  (10349062101922404990829182916756412911972788499, 2283);
  (95314861958705349965536774663326562919269382076, 2285);
  (87880302725926332668224906239587091011566370274, 2288);
  (81113519416030005052771588459138885003675759763, 2291);
  (74948891940411724668760947736244329743396402021, 2294);
  (69327725044880845318603876656026005012641671870, 2297);
  (64197473391559662765027189783480080641706188151, 2300);
  (59511057833975807383180204929286034754861636416, 2303);
  (55226261669929549251591230174377440252511598594, 2306);
  (51305197091364551254728252831996641994583275094, 2309);
  (47713833294969032666897275133756877054962445837, 2312);
  (44421578797616169412881363149527652538170037074, 2315);
  (41400911439378269892805430455359772165574474553, 2318);
  (38627050372939925809987466614850667430480984758, 2321);
  (36077665048325890706528293818270523380069239764, 2324);
  (33732616820184707810603954720082939360364739179, 2327);
  (31573729343692886510725301617997631241301395872, 2330);
  (29584584395040234660549607616063780473099407932, 2333);
  (27750340162547740111595531943867826083767244640, 2336);
  (26057569412632327964788204495291888692657442717, 2339);
  (24494115247874388286900912225574375371097996154, 2342);
  (23048962448249799377973758404265487224203214381, 2345);
  (21712122626251311014051280416818088965199427947, 2348);
  (20474531636554986286250357433059457894183060554, 2351);
  (19327957864907907054220337416808128252108809163, 2354);
  (18264920182337972166238218858883681198242824659, 2357);
  (17278614492491721669261355040503962413537712127, 2360);
  (16362847924389660420790503223357252405620213384, 2363);
  (15511979832321398078909397055742675280527962288, 2366);
  (14720868860873006776885017805899798841221036212, 2369);
  (13984825417829356438040766915604808899159984401, 2372);
  (13299568972355717972576769336740173263101145165, 2375);
  (12661189661682643509893084408576644946472290197, 2378);
  (12066113747583559264928109441373542633988092558, 2381);
  (11511072515194715538741416407070359672824640300, 2384);
  (10993074252010953339498052668752193487547531487, 2387);
  (10509378984922471392560138351327096974095440101, 2390);
  (10057475688570805122680052402220031804209336177, 2393);
  (96350617096508313075274902013267904684325440580, 2395);
  (92400241795551472239188631030723920592268097517, 2398);
  (88704232123729413349621085789494963768577373616, 2401);
  (85244767070903966228985863443704660181602856045, 2404);
  (82005465922209615512284400632843883094701947515, 2407);
  (78971263683087859738329877809428659420197975457, 2410);
  (76128298190496696787750002208289227681070848341, 2413);
  (73463807753829312400178752130999104712233368649, 2416);
  (70966038290199115778572674558545135152017434115, 2419);
  (68624159026622544957879776298113145692000858789, 2422);
  (66428185937770623519227623456573525029856831308, 2425);
  (64368912173699734190131567129419745753931269537, 2428);
  (62437844808488742164427620115537153381313331451, 2431);
  (60627147309042568641659219132186575933255244839, 2434);
  (58929587184389376719692760996485351807124097983, 2437);
  (57338488330410863548261056449580247308331747338, 2440);
  (55847687633820181096006268981891160878315121907, 2443);
  (54451495442974676568606112257343881856357243859, 2446);
  (53144659552343284330959565563167628691804670007, 2449);
  (51922332382639388791347495555214773231893162596, 2452);
  (50780041070221322237937850653000048220791513019, 2455);
  (49713660207746674470941155789287047208154891246, 2458);
  (48719387003591740981522332673501306263991793421, 2461);
  (47793718650523497902873408352704781444975949346, 2464);
  (46933431714814074940621687002356095378966382258, 2467);
  (46135563375662235666631118323316041757523953759, 2470);
  (45397394361651639895965020430142985089403570499, 2473);
  (44716433446226865297525545123690840313062516942, 2476);
  (44090403377979689183360187491959168548679641704, 2479);
  (43517228134065953223976505054563699357546806362, 2482);
  (42995021396457161785288786993908934965256244686, 2485);
  (42522076161096133005650610336975936680638425994, 2488);
  (42096855399485171675594104233606177313832041734, 2491);
  (41717983700889805130513757295503721718007553359, 2494);
  (41384239831282686689469647237139691944263492932, 2497);
  (41094550152463707882643359706479714100653648481, 2500);
  (40847982851548925635347499548240835816049726591, 2503);
  (40643742937291181007170762050499631636969477958, 2506);
  (40481167965542016283142079002297633110421600046, 2509);
  (40359724461645390234292652765290740211090335246, 2512);
  (40279005012722099453824067459760158730668154575, 2515);
  (40238726007709377354370243392300398571937486421, 2518);
  (40238726007709377354370243392300398571937486421, 2521);
  (40278964733717086731724613635692698970509423907, 2524);
  (40359522663184520905188062862964084368450442755, 2527);
  (40480601231174074467903627051552976621555794083, 2530);
  (40642523636098770765775241559759188528042017259, 2533);
  (40845736254279264619604117767557984470682227346, 2536);
  (41090810671804940207321742474163332377506320710, 2539);
  (41378446346507574788772994671482475704148864955, 2542);
  (41709473917279635387083178628854335509782055874, 2545);
  (42084859182535152105566927236514024529370094377, 2548);
  (42505707774360503626622596508879164774663795321, 2551);
  (42973270559878469166515445070476835587185097070, 2554);
  (43488949806597010796513630411322557614231318234, 2557);
  (44054306154082771936868307606669750863216325371, 2560);
  (44671066440239930743984463913163127375301353927, 2563);
  (45341132436843529705144230871860574285930874236, 2566);
  (46066590555833026180426538565810343474505768223, 2569);
  (46849722595282187625493789721429119313572366283, 2572);
  (47693017601997267002752677936414843461216668876, 2575);
  (48599184936435215075804978817206725486979785585, 2578);
  (49571168635163919377321078393550859996719381297, 2581);
  (50612163176502361684244821039815428056650488304, 2584);
  (51725630766385413641298207102691367473896799047, 2587);
  (52915320274012278155048065866053268925796425425, 2590)].
(** factorial.const:1026-1153 *)
Definition pre_factorial_1024 : list (Z * Z) := [
  (54185287960588572830769219446838547380015539635, 2593);
  (55539920159603287151538449933009511064515928126, 2596);
  (56983958083752972617478449631267758352193342257, 2599);
  (58522524952014302878150367771311987827702562498, 2602);
  (60161155650670703358738578068908723486878234248, 2605);
  (61905829164540153756141996832907076467997703041, 2608);
  (63763004039476358368826256737894288762037634132, 2611);
  (65739657164700125478259870696769011713660800791, 2614);
  (67843326193970529493564186559065620088497946416, 2617);
  (70082155958371556966851804715514785551418378648, 2620);
  (72464949260956189903724766075842288260166603522, 2623);
  (75001222485089656550355132888496768349272434645, 2626);
  (77701266494552884186167917672482652009846242292, 2629);
  (80576213354851340901056130626364510134210553257, 2632);
  (83638109462335691855296263590166361519310554281, 2635);
  (86899995731366783837652817870182849618563665898, 2638);
  (90375995560621455191158930584990163603306212534, 2641);
  (94081411378606934853996446738974760311041767248, 2644);
  (98032830656508426117864297502011700244105521472, 2647);
  (10224824237473828844093246229459820335460205889, 2651);
  (10674716503922677313233349063556052430220454948, 2654);
  (11155078746599197792328849771416074789580375421, 2657);
  (11668212368942760890775976860901214229901072690, 2660);
  (12216618350283070652642447773363571298706423107, 2663);
  (12803016031096658043969285266485022721044331416, 2666);
  (13430363816620394288123780244542788834375503655, 2669);
  (14101882007451414002529969256769928276094278838, 2672);
  (14821077989831436116658997688865194618175087059, 2675);
  (15591774045302670794725265568686184738320191586, 2678);
  (16418138069703712346845704643826552529451161740, 2681);
  (17304717525467712813575372694593186366041524474, 2684);
  (18256476989368437018322018192795811616173808320, 2687);
  (19278839700773069491348051211592377066679541586, 2690);
  (20377733563717134452354890130653142559480275457, 2693);
  (21559642110412728250591473758231024827930131433, 2696);
  (22831660994927079217376370709966655292778009188, 2699);
  (24201560654622703970418952952564654610344689739, 2702);
  (25677855854554688912614509082671098541575715813, 2705);
  (27269882917537079625196608645796706651153410193, 2708);
  (28987885541341915641583994990481899170176075036, 2711);
  (30843110215987798242645370669872740717067343838, 2714);
  (32847912380027005128417319763414468863676721187, 2717);
  (35015874597108787466892862867799823808679384786, 2720);
  (37361938195115076227174684679942412003860903567, 2723);
  (39902549992382901410622563238178496020123445009, 2726);
  (42655825941857321607955520101612812245511962715, 2729);
  (45641733757787334120512406508725709102697800105, 2732);
  (48882296854590234843068787370845234448989343912, 2735);
  (52401822228120731751769740061546091329316576674, 2738);
  (56227155250773545169648931086038955996356686771, 2741);
  (60387964739330787512202951986405838740087081592, 2744);
  (64917062094780596575618173385386276645593612712, 2747);
  (69850758813983921915365154562675633670658727278, 2750);
  (75229267242660683902848271464001657463299449278, 2753);
  (81097150087588217247270436638193786745436806322, 2756);
  (87503824944507686409804801132611095898326314022, 2759);
  (94504130940068301322589185223219983570192419144, 2762);
  (10215896554621383372971890922630080223937800509, 2766);
  (11053600072100336809555585978285746802300700151, 2769);
  (11971048878084664764748699614483463786891658263, 2772);
  (12976616983843776604987590382100074744990557557, 2775);
  (14079629427470497616411535564578581098314754950, 2778);
  (15290477558232960411422927623132339072769823876, 2781);
  (16620749105799227967216722326344852572100798553, 2784);
  (18083375027109560028331793891063199598445668826, 2787);
  (19692795404522310870853323547367824362707333351, 2790);
  (21465146990929318849230122666630928555350993353, 2793);
  (23418475367103886864510063829294343053887933748, 2796);
  (25572975100877444456044989701589422614845623653, 2799);
  (27951261785259046790457173743837238918026266652, 2802);
  (30578680393073397188760148075757939376320735718, 2805);
  (33483655030415369921692362142954943617071205611, 2808);
  (36698085913335245434174828908678618204310041350, 2811);
  (40257800246928764241289787312820444170128115361, 2814);
  (44203064671127783136936186469476847698800670666, 2817);
  (48579168073569433667492868929955055620981937062, 2820);
  (53437084880926377034242155822950561183080130768, 2823);
  (58834230453899941114700613561068567862571223976, 2826);
  (64835321960197735108400076144297561784553488822, 2829);
  (71513360122098101824565283987160210648362498170, 2832);
  (78950749574796304414320073521824872555792197980, 2835);
  (87240578280149916377823681241616484174150378768, 2838);
  (96488079577845807513872991453227831496610318917, 2841);
  (10681230409267530891785740153872320946674762304, 2845);
  (11834803293468424228098600090490531608915636633, 2848);
  (13124796852456482468961347500353999554287441026, 2851);
  (14568524506226695540547095725392939505259059538, 2854);
  (16185630726417858745547823350911555790342815147, 2857);
  (17998421367776658925049179566213650038861210444, 2860);
  (20032242982335421383579736857195792493252527224, 2863);
  (22315918682321659421307826858916112837483315328, 2866);
  (24882249330788650254758226947691465813793896590, 2869);
  (27768590253160133684310181273623675848193988595, 2872);
  (31017515312779869325374472482637645922432685261, 2875);
  (34677582119687893905768660235588888141279742121, 2878);
  (38804214391930753280555130803623965830092031434, 2881);
  (43460720118962443674221746500058841729703075206, 2884);
  (48719467253356899358802577826565961578997147306, 2887);
  (54663242258266441080576492321407008891634799277, 2890);
  (61386821056033213333487400876940070985305879589, 2893);
  (68998786866981331786839838585680639787483808658, 2896);
  (77623635225353998260194818408890719760919284740, 2899);
  (87404213263748602040979365528410950450795114617, 2902);
  (98504548348244674500183744950519141158046094174, 2905);
  (11111313053681999283620726430418559122627599422, 2909);
  (12544672437606977191207800139942553249446559748, 2912);
  (14175479854495884226064814158135085171874612515, 2915);
  (16032467715434845059679304812850781329390186755, 2918);
  (18148753453872244607556973048147084464869691406, 2921);
  (20562537663237253140362050463550646698697360364, 2924);
  (23317917710111045061170565225666433356322806652, 2927);
  (26465836600976036144428591531131401859426385550, 2930);
  (30065190378708777060070879979365272512308373985, 2933);
  (34184121460591879517300590536538314846494621221, 2936);
  (38901530222153558890688072030580602295310878950, 2939);
  (44308842923032903576493714042831306014359091124, 2942);
  (50512080932257510077202834008827688856369363882, 2945);
  (57634284343705818998088433604072392985117444189, 2948);
  (65818352720512045295816991175850672789004121264, 2951);
  (75230377159545267773118820913997318997831710605, 2954);
  (86063551470519786332447931125612932933519476932, 2957);
  (98542766433745155350652881138826808208879801087, 2960);
  (11293001033307194803184820178509552220737625204, 2964);
  (12953072185203352439252988744750456397186056109, 2967);
  (14870126868613448600262431078973523943969592413, 2970);
  (17085775772036852441701533309740579011621061683, 2973);
  (19648642137842380307956763306201665863364220936, 2976);
  (22615587100656579734458234565438117408732218297, 2979)].
(** factorial.const:1154-1281 *)
Definition pre_factorial_1152 : list (Z * Z) := [
  (26053156339956379854095886219384711254859515478, 2982);
  (30039289259969705971772556810950572076853021347, 2985);
  (34665339806005040691425530559836960176688386634, 2988);
  (40038467475935821998596487796611689004075086562, 2991);
  (46284468402181810230377539892883112488710800066, 2994);
  (53551129941324354436546813656065761149438395677, 2997);
  (62012208472053602437521210213724151411049662194, 3000);
  (71872149619110125225087082637706291485406558482, 3003);
  (83371693558167745261101015859739298123071607840, 3006);
  (96794536221032752248138279413157325120886136702, 3009);
  (11247525108884005811233668067808881179046969084, 3013);
  (13080871701632098758464755962861728811231625045, 3016);
  (15226134660699762954852975940771052336273611553, 3019);
  (17738446879715223842403716970998275971758757459, 3022);
  (20683029061747951000242733988183989783070711197, 3025);
  (24137094915059858817283270564210716076843519967, 3028);
  (28192126860789915098586860018998116377753231322, 3031);
  (32956596300263410750248039362208798045593527415, 3034);
  (38559217671308190577790206053784293713344427076, 3037);
  (45152843893101891166592331288981407938326324106, 3040);
  (52919133042715416447246212270686210103718451852, 3043);
  (62074143059105183492619806993514924451661744023, 3046);
  (72875043951389485420335653410386521306250887483, 3049);
  (85628176642882645368894392757204162534844792792, 3052);
  (10069873573202999095381980588247209514097747632, 3056);
  (11852241195659929935264591152366965598093048963, 3059);
  (13961940128487397463741688377488285474553611678, 3062);
  (16461127411486641609751450597058688574498708169, 3065);
  (19424130345554237099506711704529252517908475639, 3068);
  (22939897938099554014517426523049047223649909730, 3071);
  (27114959362833672845159598150243973818354193301, 3074);
  (32076996926232234975823804611738621027113010675, 3077);
  (37979164360658966211375384660298527296101804640, 3080);
  (45005309767380874960479830822453754845880638498, 3083);
  (53376297384113717703129079355430153247214437259, 3086);
  (63357664994942982913614217194895591904443537027, 3089);
  (75268906013992263701373690027535963182478921988, 3092);
  (89494729250636801540933317442740260223967438243, 3095);
  (10649872780825779383371064775686090966652125151, 3099);
  (12683998481963503245594938147842134341282681054, 3102);
  (15119326190500495868749166272227824134808955817, 3105);
  (18037356145267091571417755362767794192827084290, 3108);
  (21536603237448907336272799903144746266235538642, 3111);
  (25736240868751444266845995884257971788151468677, 3114);
  (30780544079026727343147811077572534258629156538, 3117);
  (36844311262594992629747929859854323507579100376, 3120);
  (44139484892588801170438019972105479562079762251, 3123);
  (52923242386213972603355185946554469994933634939, 3126);
  (63507890863456767124026223135865363993920361927, 3129);
  (76272976927011577315955493986174302156698354674, 3132);
  (91680118266267915933778503771381511192351422318, 3135);
  (11029118227432030286833554003697195796439876104, 3139);
  (13279058345828164465347599020451423738913610830, 3142);
  (16001265306722938180743856819643965605390901050, 3145);
  (19297525959907863445977091324490622520101426666, 3148);
  (23292113833608791179294349228660181381762421987, 3151);
  (28136873510999419744587573868221499109169005760, 3154);
  (34017480074798298471206376806679792422985327964, 3157);
  (41161150890505941150159715936082548831812246836, 3160);
  (49846153728402694732843415998595966635324630919, 3163);
  (60413538318824066016206220190298311562013452674, 3166);
  (73281621980733592077658145090831851924722318093, 3169);
  (88963889084610580782276988140269868236612894165, 3172);
  (10809112523780185565046654059042788990748466641, 3176);
  (13143880828916705647096731335796031412750135435, 3179);
  (15996102968791630772516722035663770229316914825, 3182);
  (19483253415988206280925367439438472139308002257, 3185);
  (23750085914089623456448022908675497537816454751, 3188);
  (28975104815189340616866587948584106996136074796, 3191);
  (35378602979346184893194103885221194642282147326, 3194);
  (43232652840761037939483194947740299852868784033, 3197);
  (52873534424250749399987947421086386720058522872, 3200);
  (64717206135282917265585247643409737345351631996, 3203);
  (79278577515721573650341928363176928248055749195, 3206);
  (97195536034274649295319204173254914032116348513, 3209);
  (11925892271405499468535666352058377951740675962, 3213);
  (14644995709285953347361798280327688124737550082, 3216);
  (17998699726712436663907650086522728705302449050, 3219);
  (22138400663856297096606409606422956307522012332, 3222);
  (27252371217207101725922490225506659214559597181, 3225);
  (33574921339599149326336507957824204152337423727, 3228);
  (41397878011725751119372914311997243719832043455, 3231);
  (51084981466469576881306176261004598750272741624, 3234);
  (63089952111089927448413127682340679456586835906, 3237);
  (77979180809307150326238625815373079808341329180, 3240);
  (96460246661112944953557180133616499722918224196, 3243);
  (11941778536645782585250378900541722665697276155, 3247);
  (14795863606904124623125219457771194382798925156, 3250);
  (18346870872561114532675272127636281034670667194, 3253);
  (22768466752848343135050012710396624764026297988, 3256);
  (28278435707037642173732115786312607956920662101, 3259);
  (35150095583847789221949019922386571690452382991, 3262);
  (43726718906306649792104580783448895182922764441, 3265);
  (54439765038351778991170203075393874502738841729, 3268);
  (67831947237786316622998073031940767630412596795, 3271);
  (84586438205519536828878597070830137235124508203, 3274);
  (10556387488048838196244048914439601126943538623, 3278);
  (13184927972572998907108817094135061807552479741, 3281);
  (16481159965716248633886021367668827259440599676, 3284);
  (20617931117111027040991412730953702901560190195, 3287);
  (25813649758623005855321248739154036032753358124, 3290);
  (32344503147554626336717524670160007149039957730, 3293);
  (40560006947033501426243775936380648964896106993, 3296);
  (50902808718527044289935938800157714450944614276, 3299);
  (63933927750469967628159539132998089350386435531, 3302);
  (80364947182340749308596540690178598313435749463, 3305);
  (10109910355538466263021444818824467667830217282, 3309);
  (12728377137622929025143999026900004793798243558, 3312);
  (16037755193404890571681438773894006040185786883, 3315);
  (20223609298883567010890294293880341616674277260, 3318);
  (25522194935191061567743551398876991120242937902, 3321);
  (32234532203146310760060105416781639784866830571, 3324);
  (40744448704776936800715973246811992688071673842, 3327);
  (51541727611542825052905706157217170750410667410, 3330);
  (65251827156213216516978623995036938170019904941, 3333);
  (82674065006922145327011916601711800661415219560, 3336);
  (10483071442877728027465111025097056323867449840, 3340);
  (13303017661011836866853225890848164474987793847, 3343);
  (16894832429485032820903596881377168883234498186, 3346);
  (21473332017875476715368471636230381650591047194, 3349);
  (27314078326737606381948695921285045459551812031, 3352);
  (34770821709936972924220689907795862870009456716, 3355);
  (44298026858459703505457158942531929296392047856, 3358);
  (56479984244536121969457877651728209852899861016, 3361);
  (72068459896028091633028251883605195772300222657, 3364);
  (92031423287227873015377077655363835001227384333, 3367);
  (11761615896107722171365190524355498113156859717, 3371);
  (15043106731121776657176078680650682086727623579, 3374)].
(** factorial.const:1282-1409 *)
Definition pre_factorial_1280 : list (Z * Z) := [
  (19255176615835874121185380711232873071011358181, 3377);
  (24665881244885754749238472691089310403965549830, 3380);
  (31621659755943537588523721989976495937883834882, 3383);
  (40570589466875558726075935313139844288304960153, 3386);
  (52092636875468217404281500942071560066183568837, 3389);
  (66939038384976659364501728710561954685045885956, 3392);
  (86083603363079983942749223121782673724969009339, 3395);
  (11078959752828393933431825015773430108403511502, 3399);
  (14269700161642971386260190620316177979623722814, 3402);
  (18393643508357790116889385709587553415734978708, 3405);
  (23727800125781549250787307565367943906298122533, 3408);
  (30632589962383980082766414066890015583030876190, 3411);
  (39577306231400102266934206974421900133275892038, 3414);
  (51173456957200332231145929617927516872325728405, 3417);
  (66218453302617229907102832925598206832789492556, 3420);
  (85752897026889312729698168638649677848462392861, 3423);
  (11113575454684854929768882655568998249160726114, 3427);
  (14414307364726256843910240804272990729161461770, 3430);
  (18709770959414681383395492563946341966451577378, 3433);
  (24303992476279671117030744840566298214420599014, 3436);
  (31595190219163572452139968292736187678746778719, 3439);
  (41105342475131807760234098748849780170049559113, 3442);
  (53519155902621613703824796571002413781404525966, 3445);
  (69735460141115962656083709932016145157170097333, 3448);
  (90935040024015215303533157751349053284949806923, 3451);
  (11867022723133985597111077086551051453685949803, 3455);
  (15498331676412985189827066675035673198513850443, 3458);
  (20256319501071771643103976144271624870457602529, 3461);
  (26495265907401877309180000796707285330558544108, 3464);
  (34682303072789057397716621042889836497701134238, 3467);
  (45433817025353665191008773566185685811988485851, 3470);
  (59563734120238655065412502145269434099516904951, 3473);
  (78147619165753115445821202814593497538566179296, 3476);
  (10260782396463384058036323929556126226813739341, 3480);
  (13482668068952886652259729643436749862033253494, 3483);
  (17729708510673045947721544481119326068573728345, 3486);
  (23332296400045728467201552537153033106243026503, 3489);
  (30728634358860224391304444691430544600922065904, 3492);
  (40500340084977775747739258103305457784015282862, 3495);
  (53419948572085686211268081438259898817116158095, 3498);
  (70514332115153105798873867498503066438593328685, 3501);
  (93149432724117252760312378965522550765381787194, 3504);
  (12314355006128300814913296499242081211183472267, 3508);
  (16291891673107741978130291268497273442395733809, 3511);
  (21570464575194650379044505639490390037731951563, 3514);
  (28580865562132911752233969972324766799994835821, 3517);
  (37898227735388240983462244183302640776793152299, 3520);
  (50290948204860195785054398031242604310804513101, 3523);
  (66786379216054340002552240585490178524748393398, 3526);
  (88759097978136217863391927738116447259390614827, 3529);
  (11804960031092116975831126389169487485498951771, 3533);
  (15712401801383607694831229223984587843199104808, 3536);
  (20928919199442965449515197326347471007141207604, 3539);
  (27898249292857472944203758036021178852519229737, 3542);
  (37216264556671868907567813220052252589260652469, 3545);
  (49683713183156944991603030648769757206662971047, 3548);
  (66377440812697678508781648946756395628101729318, 3551);
  (88746638366576796166241064641813300954772012099, 3554);
  (11874300213447975327043054449074619667748495218, 3558);
  (15899687985806838962910649907310915735115235098, 3561);
  (21305581900981164210300270875796627085054415031, 3564);
  (28570785329215741206012663244443276921057970557, 3567);
  (38341993911807524698468994074042877628059796487, 3570);
  (51493297823557505670043859041439584654484306683, 3573);
  (69206992274861287620538946551694801775626908181, 3576);
  (93083404609688431849624883112029508388218191504, 3579);
  (12529026260464062926959509266879171829054168576, 3583);
  (16876598372845092762614458982486244453735965072, 3586);
  (22749654606595185044004290708391457523636080917, 3589);
  (30689284064296904624361788165620076199385073158, 3592);
  (41430533486800821242888414023587102869169848763, 3595);
  (55972650740667909499142247345866175976248465679, 3598);
  (75675023801383013642840318411611069919887925598, 3601);
  (10238830720327121745876295081090977760160836333, 3605);
  (13863376795322922843916503539797183887257772395, 3608);
  (18784875557662560453506862296425184167234281596, 3611);
  (25472291256190431974955305273952549730769685844, 3614);
  (34565899234650416190014349256753609984654463690, 3617);
  (46940491160655265186039486290671402359160761691, 3620);
  (63792127487330505387827661869022435806099475139, 3623);
  (86757293382769487327445620141870512696295286189, 3626);
  (11807667629394927225265348901308576777965788450, 3630);
  (16082043311235890880811405203582281571589403869, 3633);
  (21919825033214519270545945292482649782076357473, 3636);
  (29898641345304604285024669378946334302752151594, 3639);
  (40811645436340784849058673702261746323256686926, 3642);
  (55748707666041512103814148277289545477568634341, 3645);
  (76208483379478747045913940695054808667836323144, 3648);
  (10425320526312692595881027087083497825760009006, 3652);
  (14272263800522076163761126082217308523465452329, 3655);
  (19553001406715244344352742732637712677147669691, 3658);
  (26807164928606599996107610286446304080369455146, 3661);
  (36779430282048255194659641313004329198266892461, 3664);
  (50498157777252254382267687522754943989220443349, 3667);
  (69384468785944597521235802656265293041188889162, 3670);
  (95403644580673821591699228652364777931634722598, 3673);
  (13127541494300717851017813862565393443392937829, 3677);
  (18076624637652088480851529688752546771552075391, 3680);
  (24909588750684577926613407911101009451198759889, 3683);
  (34350322887194032960799889509408292033203089887, 3686);
  (47403445584327765485903847522983443005820264044, 3689);
  (65464158351956644136033213429240134791037784645, 3692);
  (90471466842404082195997900959209866281214218379, 3695);
  (12512203864304484567706509702658724506691926401, 3699);
  (17316890148197406641705809428479674717261626140, 3702);
  (23983892855253408198762546058444349483407352204, 3705);
  (33241675497381223763484888837003868384002590155, 3708);
  (46106203914867757359953540816924365448611592545, 3711);
  (63995411033836447215615514653891019242672890452, 3714);
  (88889625925998825182489949854254625728072644838, 3717);
  (12355658003713836700366103029741392976202097632, 3721);
  (17186720283165946850209249314370277629897117806, 3724);
  (23923914634166998015491275045603426460816787987, 3727);
  (33326013085394628235579346138525573059917785666, 3730);
  (46456462241040111760397608517104648845525393218, 3733);
  (64806764826250955905754663881360985139507923540, 3736);
  (90470243697446334444433510778379935254753061262, 3739);
  (12638693044533252921887361455739676955089002658, 3743);
  (17668892876257487584798531315124068383214425716, 3746);
  (24718781133884225131133145309858571668116981577, 3749);
  (34606293587437915183586403433802000335363774208, 3752);
  (48483417316000519172204551210756602469844647665, 3755);
  (67973751077032727879430780797480756662722196026, 3758);
  (95367172761076917214841385458865501597799241025, 3761);
  (13389551055655199176963730518424716424331013440, 3765);
  (18812319233195554843634041378386726576185073883, 3768);
  (26450120841872950110149462178011737566116213879, 3771);
  (37215320024515240804980293284462514755525512928, 3774)].
(** factorial.const:1410-1537 *)
Definition pre_factorial_1408 : list (Z * Z) := [
  (52399170594517459053412252944523220775779922203, 3777);
  (73830431367675099806257864398833218073073910385, 3780);
  (10410090822842189072682358880235483748303421364, 3784);
  (14688638151030328781554808380012267568856127545, 3787);
  (20740357069254824239555389432577321807224852093, 3790);
  (29306124538857066650491765268231755713608716008, 3793);
  (41438860097943892243795356089279702579042724435, 3796);
  (58635987038590607524970428866330779149345455076, 3799);
  (83028557646644300255358127274724383275473164388, 3802);
  (11765146618529497346184246634828445110134547393, 3806);
  (16682977905074827236889261728186735166170788204, 3809);
  (23673145647301179849145862392296977200796348462, 3812);
  (33615866819167675385787124597061707625130814816, 3815);
  (47768146750037266723203504052424686535310887853, 3818);
  (67926304678552993280395382762547904253212082528, 3821);
  (96659131557580909438002629671105667752320793437, 3824);
  (13764260333799521503971574465165447087930480985, 3828);
  (19614070975664318143159493612860762100300935404, 3831);
  (27969665211297317672145437891939446755029133886, 3834);
  (39912712256521272318151539871797590519426574056, 3837);
  (56995353102312376870320398936926959261741147752, 3840);
  (81446359583204386547687850080868624785028100137, 3843);
  (11646829420398227276319362561564213344259018319, 3847);
  (16666612900589863232413007825598389295634655215, 3850);
  (23866589673644684148815427206256893471348826268, 3853);
  (34200823002332832385252507186566128344442868042, 3856);
  (49043980185345281640452095305535828045931072773, 3859);
  (70378111565970479154048756763443913245911089430, 3862);
  (10106296820873360806521401471230545942112832442, 3866);
  (14522748531595019478971253914158294518816140219, 3869);
  (20883712388433638010760663128559627518057609635, 3872);
  (30051662126956005097484594241997303998484900265, 3875);
  (43274393462816647340377815708476117757818256382, 3878);
  (62358400979918788817484432435914085689016107446, 3881);
  (89920814213042893474812551572588111563561226938, 3884);
  (12975573490942089528415451191924464498621885047, 3888);
  (18736728120920377279031911521138926736010002008, 3891);
  (27074572134729945168201112148045749133534452901, 3894);
  (39149831306819500713218808166074153247090818896, 3897);
  (56649805900967817532027615416309299748540414942, 3900);
  (82028918944601399786375987122815866035886520836, 3903);
  (11885990355072742829045880534096018988599956869, 3907);
  (17234686014855477102116526774439227533469937460, 3910);
  (25007529407555297275171080349711319151064879255, 3913);
  (36310932699770291643548408667780835407346204678, 3916);
  (52759785212766233758075837794285553846874035397, 3919);
  (76712727699362103884242268152891195293354847468, 3922);
  (11161701880257186115157250016245668915183130306, 3926);
  (16251437937654462983668956023653693940506637726, 3929);
  (23678345075162552567205668926463432071318171167, 3932);
  (34523027119587001642985865294783683959981893562, 3935);
  (50369096567477435397116377465089394897613582707, 3938);
  (73538880988517055679789911099030516550515830752, 3941);
  (10744030512422341834817306011568358468030362872, 3945);
  (15707772609161463762502901388912940080260390520, 3948);
  (22980471327203221484541744731979631337420951331, 3951);
  (33643410023025516253369114287618180277984272748, 3954);
  (49287595683732381311185752431360634107246959576, 3957);
  (72255615272351671002198313064374689601224042739, 3960);
  (10599898760453990136022492526543766964499567069, 3964);
  (15560651380346457519681019028966249903885364458, 3967);
  (22858596877728946096411416953551421108807600389, 3970);
  (33602137410261550761724782921720589029947172572, 3973);
  (49428744130494741170497155677850986463052290854, 3976);
  (72759111360088259002971813157796652073612972138, 3979);
  (10717417103341000551137748078143446850443190795, 3983);
  (15797472810324634812377040667183440657553263233, 3986);
  (23301272395228836348256134984095574969891063268, 3989);
  (34392678055357762450026055236525068655559209385, 3992);
  (50797985487763415138688483584347526404260952261, 3995);
  (75079422550914327574981578737665644025497687442, 3998);
  (11104246595280229048339775495300748751371107972, 4002);
  (16434284961014738991542867733045108152029239799, 4005);
  (24339176027262828446474987112639805173155304143, 4008);
  (36070658872403511757675930900932191266616160740, 4011);
  (53492787107774407936633405526082439648391766378, 4014);
  (79383296067937221377963973800706340438213381305, 4017);
  (11788419466088677374627650109404891555074687123, 4021);
  (17517591326607774578696688062575668850840985066, 4024);
  (26048658302665760798521975149050019581200544793, 4027);
  (38760403554366652068200699021786429136826410652, 4030);
  (57714240892451944929550840843439992984734525461, 4033);
  (85994218929753397945030752856725589547254442937, 4036);
  (12821738042426231633604085250937785401495637441, 4040);
  (19130033159299937597337295194399175819031491063, 4043);
  (28561139506834806832824581725237969497814016157, 4046);
  (42670342423211201408239925097505526429734140139, 4049);
  (63792161922700746105318688020770762012452539508, 4052);
  (95433074236360316173556757279073059970628999104, 4055);
  (14286331213183139331181446564677237077603161165, 4059);
  (21400924157348342718109806953886501142249535426, 4062);
  (32079985311865165734446600623875865212232053604, 4065);
  (48119977967797748601669900935813797818348080406, 4068);
  (72228086929664420651106521304656510525340468690, 4071);
  (10848658656835595981796199499959407880906138397, 4075);
  (16305533961223900760639687848438990045001926011, 4078);
  (24523523077680746744002090524052241027682896720, 4081);
  (36907902231909523849723146238698622746662759564, 4084);
  (55583300761255742917683058235480125856474115904, 4087);
  (83764034247212404576948368760868549665706492668, 4090);
  (12631616364479630610203814009138977289588539094, 4094);
  (19061109093999762590797555339790716729989105493, 4097);
  (28782274731939641512104308563083982262283549295, 4100);
  (43490017119960798324789610238819897198310442984, 4103);
  (65756905885380727067081890681095684563845389792, 4106);
  (99490198604581040052494900600497770745098074756, 4109);
  (15062816068733569463947727950915362490807848518, 4113);
  (22820166344131357737880807845636774173573890505, 4116);
  (34595372177703138330627304693985349647138018005, 4119);
  (52481179593575660847561621220775775414708373314, 4122);
  (79666430623047853166598541013137627079527310691, 4125);
  (12101330811640968896006318379895605553380198494, 4129);
  (18394022833694272721929603937441320441137901710, 4132);
  (27977308730048988810054927588848248390970748502, 4135);
  (42581463887134560968903599790227034051057479220, 4138);
  (64851569500105936355640182480515772859760540852, 4141);
  (98833791918161447005995638100306037838275064259, 4144);
  (15072153267519620668414334810296670770336947299, 4148);
  (23000105886234941140000274920512719595534181579, 4151);
  (35121161688280755120780419803622922822380695271, 4154);
  (53665135059692993824552481459935826072597702374, 4157);
  (82053991506270587557740744152241878065001886931, 4160);
  (12554260700459399896334333855293007343945288700, 4164);
  (19220573132403341241287865132453594243580237000, 4167);
  (29445918038841918781653009382918906381164923084, 4170);
  (45140592353544661492274063384014683482325827088, 4173);
  (69245668670337510729148413231078524461887818754, 4176);
  (10629210140896807896924281430970553504899780178, 4180)].
(** factorial.const:1538-1665 *)
Definition pre_factorial_1536 : list (Z * Z) := [
  (16326466776417496929675696277970770183526062354, 4183);
  (25093779435353692780911545179241073772079557838, 4186);
  (38594232771573979497041956485672771461458359956, 4189);
  (59396524235452354445947571031450395279184415972, 4192);
  (91470647322596625846759259388433608729944000598, 4195);
  (14095626752412140042985601871757619105284370492, 4199);
  (21735456452219519946283798086250248660348499298, 4202);
  (33537809305774719277115900447084133682917734418, 4205);
  (51782377568116166563866950290297902406424981941, 4208);
  (80003773342739477341174438198510259217926597100, 4211);
  (12368583358787523196945568145489686075091451911, 4215);
  (19134198456044298385674793921072544358166476107, 4218);
  (29619739209956573901024580989820298666441705014, 4221);
  (45880976036222732972687075953231642634318201066, 4224);
  (71115512856145236107664967727509046083193211653, 4227);
  (11030016043988126120298836494536653047503267127, 4231);
  (17118584900269571738703794239520885529725070581, 4234);
  (26585162350118644910206992453975935227663034613, 4237);
  (41313342292084374190461666273478603343788355789, 4240);
  (64242247264191201866167891055259228199590893252, 4243);
  (99960936743081510103757238481983359078563429901, 4246);
  (15563917850897791123155002031644809008532326035, 4250);
  (24248584011698758569875493165302612435293363963, 4253);
  (37803542474238364610435893844706772786622354419, 4256);
  (58973526259811848792279994397742565547130872893, 4259);
  (92057674491566295964749071254876144819071292587, 4262);
  (14379408755582655429693804930011653820738935902, 4266);
  (22475015884975690436611417105608214921814956815, 4269);
  (35150924844101979842860256353171248137718592458, 4272);
  (55011197381019598454076301192713003335529597197, 4275);
  (86147535098676691179083487667788563223439349211, 4278);
  (13499318749962637507762382517542467857112946021, 4282);
  (21166931799941415612171415787506589599953099361, 4285);
  (33210915994108081095496951370597839082326412898, 4288);
  (52141138110749687319930213651838607359252468250, 4291);
  (81913727971987758779610365647038452161385627621, 4294);
  (12876838037196475680154749479714444679769820662, 4298);
  (20255266232510056244883420931590821481277927901, 4301);
  (31881789049970828529446504546323953011531458517, 4304);
  (50213817753704054933878244660460225993162047164, 4307);
  (79136976779837590575792113584885316165223386331, 4310);
  (12479901238180388033802416312336414359255728024, 4314);
  (19693284153848652317340212940866861858905538822, 4317);
  (31095695678927022009080196233628774875211845800, 4320);
  (49131199172704694774346710049133464302834716365, 4323);
  (77676425892046122438242148587680007062781686573, 4326);
  (12288410576121696569729907906570977117332062815, 4330);
  (19452553942000645669882444216101856776736655437, 4333);
  (30812845444129022741093791638305341134350862213, 4336);
  (48838360028944501044633659746713965697946116607, 4339);
  (77457639005905978656788984358288349596942540940, 4342);
  (12292527310237278812832411817660361081034781247, 4346);
  (19520533368656798754777869966444653396683232620, 4349);
  (31018127522795653221342035376680554247329656634, 4352);
  (49318822761245088621933836248922081253254154048, 4355);
  (78466247013140935997496733472035031273927359090, 4358);
  (12491826524492037010801479968747976978809235567, 4362);
  (19899479653515814958206757590215527327243112258, 4365);
  (31719770567704209043381571598803550559625520940, 4368);
  (50593034055488213424193606700091663142602705899, 4371);
  (80746482352559188625012996293346294375593918615, 4374);
  (12895213231703702423414575508047403211782348802, 4378);
  (20606550744262516472616491661859750332428193387, 4381);
  (32949874640075763839713770167313740781552681225, 4384);
  (52719799424121222143542032267701985250484289961, 4387);
  (84404398878018076651810793660590878386025348228, 4390);
  (13521584700258495879620089144426658717441260786, 4394);
  (21675100274514368895031002898515933924058341040, 4397);
  (34766860840321047707629728649219558014189579028, 4400);
  (55800811648715281570745714481997390612774274340, 4403);
  (89616103507836742202617617458087809324115484591, 4406);
  (14401307833709364471960651125514710958385358373, 4410);
  (23157302996604658070912727009827655221083656265, 4413);
  (37260100521536894836098577758812697250723602930, 4416);
  (59988761839674400686118710191688442573665000718, 4419);
  (96641895323715459505337242118810080986174316157, 4422);
  (15578673526182932072260363429552185054971299764, 4426);
  (25128400397733069432555966211867674493668706520, 4429);
  (40557238241941174064145329465954426632781292323, 4432);
  (65499939760734996113594707087516399011941787102, 4435);
  (10584790265334775371956904665342650080329792795, 4439);
  (17115605859046331776454314843859065179893274950, 4442);
  (27693050279936964814303081417363967461067318870, 4445);
  (44835048403217946034356688814712263319467989251, 4448);
  (72632778413213072575657835879833866577538142586, 4451);
  (11773773380781839064514135196121069772218932913, 4455);
  (19097060423628142962641927288108375170539109185, 4458);
  (30994529067548476028367847988599892901784974207, 4461);
  (50335115205698725070069385133486226072498798113, 4464);
  (81794562209260428238862750841915117367810546934, 4467);
  (13299795815225745631639083286895398084005994931, 4471);
  (21638767791372288142676788507778812682677753753, 4474);
  (35227913964354085096277811690663907047399383110, 4477);
  (57386271847932804621836555244091504580213595087, 4480);
  (93539623112130471533593585047869152465748159993, 4483);
  (15256312529588479907129113721307458767163524894, 4487);
  (24898302048288399208434713593173772708010872628, 4490);
  (40658927244854955907373887297652770832181755002, 4493);
  (66436687118092997952648931844364627539784987673, 4496);
  (10862398343808205165258100356553616602754845484, 4500);
  (17770883690470223650362252183321716762106927212, 4503);
  (29090936601299756115643006824097650339569039847, 4506);
  (47650954152929000517423245177871951256214087270, 4509);
  (78099913856650631848056698846532128108934889035, 4512);
  (12808385872490703623081298610831269009865321801, 4516);
  (21018561216757244645476411020374112445188993076, 4519);
  (34512477517915395707872266895454292635000326632, 4522);
  (56704000561934995148034134509231402799305536656, 4525);
  (93221376923821132023368117133176426202058302263, 4528);
  (15334916503968576217844055268407522110238590722, 4532);
  (25241272565532276454571314971798781393452720329, 4535);
  (41572375915431659320678955758552592955016630381, 4538);
  (68511275508631374560478919090094673189867406869, 4541);
  (11297509331373313665022973757956611609009135392, 4545);
  (18640890396765967547287906700628409154865073398, 4548);
  (30776110045060612420572333962737503514682236180, 4551);
  (50842133794440131718785495706442355806255054169, 4554);
  (84042047162209537731152424402749214147739604542, 4557);
  (13900554600629457540732610996214720020036130591, 4561);
  (23005417864041752229912471198735361633159796128, 4564);
  (38096971982853141692735052305105758864512622389, 4567);
  (63126682575587655784861981669560242438497415298, 4570);
  (10466403971032433329130116560813088196302871456, 4574);
  (17363764187942806893026863374388913317666463746, 4577);
  (28823848551985059442424593201485596107326329818, 4580);
  (47876412444847183733867249307667575134269033829, 4583);
  (79570597483336019365687368349343509873155134224, 4586);
  (13232590361478780020513809356495825691905698821, 4590)].
(** factorial.const:1666-1793 *)
Definition pre_factorial_1664 : list (Z * Z) := [
  (22019030361500689954134978769209053951331082838, 4593);
  (36661685551898648773634739650733074828966252926, 4596);
  (61078368129463148856875476258121302665057777376, 4599);
  (10181763967181506914441141892228821154265131488, 4603);
  (16983182297258753533287824676237673685314239322, 4606);
  (28344931254124859647057379384640677380789465430, 4609);
  (47336035194388515610585823572349931225918407268, 4612);
  (79098514809823209585288911189396735078509658545, 4615);
  (13225271676202440642660305950867134105126814908, 4619);
  (22125879514286683195170691855800715357877161342, 4622);
  (37038722306915907668715738166610397509086368087, 4625);
  (62039859864084145345098861429072415827719666545, 4628);
  (10397880513220502759838569175512536892725816113, 4632);
  (17437245620670783128249280507334524369101193621, 4635);
  (29259698151485574089202292691307331891351802897, 4638);
  (49127033196344278895770649428705010245579677064, 4641);
  (82533415769858388544894691040224417212573857468, 4644);
  (13873867190913195114396797563861724533433665440, 4648);
  (23335844615115994182415413502415420665235425270, 4651);
  (39274226487240218209005140924565152979591220730, 4654);
  (66137797404512527463964657316967717617631615710, 4657);
  (11144218862660360877678044757909060418570927247, 4661);
  (18789153002445368439765183461834675865710583338, 4664);
  (31697301115125336557883864500115098185453754092, 4667);
  (53505044282331568109707963276194285737045936908, 4670);
  (90370019792858018537296749973492148609870587437, 4673);
  (15272533344993005132803150745520173115068129276, 4677);
  (25825853886383171679570127910674612737580206607, 4680);
  (43697344775760326481832656424861444751985709579, 4683);
  (73979604705362232733742687327290425965111806318, 4686);
  (12532145037088362225096011233242998158489939990, 4690);
  (21241985837864773971537739040346881878640448283, 4693);
  (36026407981018656655728005412428311666174200289, 4696);
  (61136814343788660344770425184890844897497617890, 4699);
  (10381031075575314526542018196394465463595095517, 4703);
  (17637371797402459380594888915674196822648067284, 4706);
  (29983532055584180947011311156646134598501714384, 4709);
  (51001988026548691790866240277455074952051416167, 4712);
  (86805383621185873428054340952228537568391510316, 4715);
  (14782956830687954244797654264164519947897074206, 4719);
  (25190158439492274033135202866136341991216614448, 4722);
  (42949220139334327226495520886762463095024327634, 4725);
  (73271369557704362248401358632816762040111502945, 4728);
  (12507422783500134635802111918621821280247033552, 4732);
  (21362678114218229957950007157006070746661933308, 4735);
  (36508816897198954998136562231323374906045244023, 4738);
  (62430076894210213046813521415562971089337367280, 4741);
  (10681786156599367452309793514202824353385623541, 4745);
  (18287217900098117078354366496315235292996187503, 4748);
  (31326004262868074555221029808187998056902469193, 4751);
  (53692771306555879787648845091234228669530832197, 4754);
  (92083102790743333835817769331466702168245377217, 4757);
  (15801460438891556086226329217279686092070906730, 4761);
  (27131107573576801800050607266069221020085746856, 4764);
  (46611242811404945492486943283106921712507313099, 4767);
  (80124726392805101301585055503660798423800071217, 4770);
  (13781452939562477423872629546629657328893612249, 4774);
  (23717880508987023646484795449749640263025906681, 4777);
  (40842190236475654719246817764468880532930611305, 4780);
  (70371093777447553081262267008179881158239443278, 4783);
  (12131976567231958151209614832210211511680480021, 4787);
  (20927659578475127810836585585562614857648828036, 4790);
  (36121140432448070601503946720681073244301877191, 4793);
  (62381209526837817928797315986616213492909341909, 4796);
  (10779473006237574938096176202487281691574734281, 4800);
  (18637708827784767067968288654100510044732715573, 4803);
  (32243236272067647027585139371593882377387597942, 4806);
  (55813041986949097004749876252229010395257932037, 4809);
  (96668188721395836012226785668860646004586738289, 4812);
  (16752597105417898380918901956413549952594881745, 4816);
  (29049003380794635792513375992421095617799524946, 4819);
  (50400020865678693100010707346850600896882175782, 4822);
  (87494436222818211221618587954132643156987457159, 4825);
  (15197783571903523289195148727632840116368721308, 4829);
  (26413747847968323476621168488625876122248837634, 4832);
  (45933507507616914525844212001720398576590728645, 4835);
  (79924303063253431274968928882993493523267867843, 4838);
  (13914821163312422384972090518529167222400935791, 4842);
  (24239618466490239794621381683277809301422430148, 4845);
  (42249654987092487962025068273953221612379295749, 4848);
  (73683398297489299005771719069774418491989491787, 4851);
  (12857753002911882676507164977675636026852166316, 4855);
  (22449636743084147153181510051021660502883882389, 4858);
  (39219515390168005076608098059134840898538142534, 4861);
  (68555712902013672873910955407367701890644673149, 4864);
  (11990394186562191385647026100748611060673753333, 4868);
  (20983189826483834924882295676310069356179068334, 4871);
  (36741565386173194953468899729218931442669548653, 4874);
  (64371222556575437558477512325591567887557049240, 4877);
  (11284275314167674204001107910676201850688750731, 4881);
  (19792618901050100553817943275326058046108068783, 4884);
  (34736046171342926471950490448197231870919660715, 4887);
  (60996497076878178884745061227034339165334924216, 4890);
  (10717084536407496030049707257589933391349346184, 4894);
  (18840634615004378020827385358843102901992150592, 4897);
  (33140676287792700938635370846205018004604192892, 4900);
  (58327590266515153651998252689320831688103379491, 4903);
  (10271488645933318558116892298589398460275005128, 4907);
  (18098362994134507299401964230114520087004559036, 4910);
  (31907413958659136368845662937691898913389037581, 4913);
  (56284678223074716554643749422088509683218262293, 4916);
  (99342457063726874718946217729986219590880232947, 4919);
  (17543877917454166075365902051115566379749449138, 4923);
  (31000032280141511455171548924321205793017276627, 4926);
  (54808057071290192252743298498199891842054545077, 4929);
  (96955452959112350095102895043315608668594490242, 4932);
  (17161115173762885966833212422666862734341224772, 4936);
  (30392334972734071047261619200543013902518309072, 4939);
  (53855217571684773895747589223362220635262443677, 4942);
  (95485300754597104117160475693021217186320312639, 4945);
  (16939092353865526270384268387941963928853223462, 4949);
  (30066888928111309129932076388596985973714471645, 4952);
  (53398794736325685014759367666148247089316901642, 4955);
  (94889658246450742271227396342745435077716134218, 4958);
  (16871381236218941975824231069740138356817928664, 4962);
  (30014187219233497774991307073067706136779095093, 4965);
  (53425253250235626039484526590060516923466789266, 4968);
  (95150376038669649976321941856897780640694351683, 4971);
  (16955797010090931625780570038899184510171733469, 4975);
  (30232186068992131088766756379357245981636200776, 4978);
  (53934219947081961862359893380773326831238982185, 4981);
  (96272582605541301924312409684680388393761583201, 4984);
  (17194283253349676523682196369683917367125818759, 4988);
  (30726184173735871947820084912625160335053838123, 4991);
  (54938417302639739042702311823773786679076262565, 4994);
  (98284828554422493147394435852731304368867433729, 4997);
  (17592984311241626273383604017638903482027270637, 5001);
  (31509034901433752655630034795591276136310841711, 5004)].
(** factorial.const:1794-1921 *)
Definition pre_factorial_1792 : list (Z * Z) := [
  (56464190543369284758889022353699566836269028347, 5007);
  (10124029364426112757268801708018332333743036782, 5011);
  (18162508679780446286540230264184888206735007988, 5014);
  (32601703080205901084339713324211874331089339338, 5017);
  (58552658732049798347474125130284526298636453452, 5020);
  (10521912774149348763041100285912129375864970685, 5024);
  (18918399167920529075947898314070008617805217292, 5027);
  (34034200103089031807630269067011945503431585909, 5030);
  (61261560185560257253734484320621501906176854636, 5033);
  (11033206989419402331397580626143932493302451520, 5037);
  (19881838994933763001178440288311366352931017639, 5040);
  (35846955707865574691124727839825393534334624803, 5043);
  (64667908096989496742789009023045009935939663145, 5046);
  (11672557411506604162073416128659624293437109197, 5050);
  (21080638685180927116704589528359281473947419211, 5053);
  (38092714104121935299885193277745221623422986514, 5056);
  (68871627100252459022192429446163360695148759617, 5059);
  (12458877342435669837114610486810951949752410614, 5063);
  (22550567989808562405177444981127823029051863212, 5066);
  (40839078629543306515776352860822487505612924278, 5069);
  (74000410476732471406586751383810347360170618792, 5072);
  (13416274419431597066014178025884815976398933187, 5076);
  (24337121796848917077749718938955056181187664801, 5079);
  (44171876061280784496115739874203426968855611614, 5082);
  (80216126927285904644946183611553423375441790692, 5085);
  (14575270262687848873986721562219257027317773368, 5089);
  (26497841337566509252907859800114609275663711984, 5092);
  (48199573393033480331039396976408474272432292099, 5095);
  (87723223575320934202491702497063423175826771621, 5098);
  (15974399013065942118273739024715249360318055112, 5102);
  (29105355001806146539494752503031184334499496414, 5105);
  (53059062168292605141498933813025849041792581963, 5108);
  (96779729394965711778094055274959148652229669501, 5111);
  (17662300614581242399502165087680044629031914684, 5115);
  (32251360922225348621490953450103761492612276213, 5118);
  (58923236404905711931463971953339572247002628641, 5121);
  (10771167614816764141071614073070473806752080515, 5125);
  (19700465567499861614019982139645896592549555263, 5128);
  (36051851988524746753656567315551990764365686131, 5131);
  (66010940990988811305945174754775695089553571306, 5134);
  (12093204389549150231249156015074907340406214263, 5138);
  (22166843646043592373879702975632305154964590744, 5141);
  (40653991246843948413695375257309647654205059425, 5144);
  (74600073937958645339131013597163203445466284046, 5147);
  (13696573575009207284264454096439164152587609750, 5151);
  (25160605657291913781193802175158744548303439112, 5154);
  (46245193198102537529834208397941772479781721088, 5157);
  (85044910291310566517365109243814919590318585082, 5160);
  (15648263493601144239195180100861945204618619655, 5164);
  (28808453091719706544358326565686841121702878785, 5167);
  (53065170594947699454708037533995161346176702722, 5170);
  (97799109406488610095026913175153082361003663117, 5173);
  (18034155774556499701522962789498228387369075478, 5177);
  (33273017404056741949309866346624231374695944258, 5180);
  (61421990127888745638426013275868331117688713100, 5183);
  (11344641576621051319417284652052880757437105309, 5187);
  (20964897633595702838283142036993723639743770612, 5190);
  (38764095724518454547985529626401395009886231862, 5193);
  (71713577090359140913773229808842580768289528945, 5196);
  (13274183119425476983139424837616761700210391807, 5200);
  (24583787137175983372774214799266242668789645628, 5203);
  (45553757565187097189750620023040347665267213348, 5206);
  (84456666525856878189797649522716804571405413548, 5209);
  (15666711640546450904207463986463967247995704213, 5213);
  (29077416804854212878209053158877123212280027019, 5216);
  (53996763006614273314834211716034817805204010175, 5219);
  (10032598566628931981896196536839269148206905090, 5223);
  (18650600735363184554345029361984201346516636563, 5226);
  (34690117367775523271081754613290614504520944008, 5229);
  (64558308421430248807483145335333833592913476799, 5232);
  (12020757028070312327953361661439159815000489380, 5236);
  (22394670343294991866977112775261154735345911714, 5239);
  (41743665519901864840045338213086792426684779436, 5242);
  (77851936194616977926684555767406867875767113649, 5245);
  (14527171293915528081119338106198121545618143406, 5249);
  (27122228805740290927449804244271892925669073740, 5252);
  (50664323409122863452476234328299895985149829747, 5255);
  (94691620451650631792678081959592505596245031798, 5258);
  (17707333024458668145230801326443798546497820946, 5262);
  (33130420088762168099726829281776347080497422990, 5265);
  (62020146406162778682688624415485321734691175838, 5268);
  (11616373421874288447267579353020400760907657234, 5272);
  (21769083792592416550179443707560231025940949657, 5275);
  (40817032111110781031586456951675433173639280607, 5278);
  (76572752240443825215256193241343112633747290420, 5281);
  (14372705595531305992903587471400102241354366411, 5285);
  (26991941108407792654672937271289392009263500121, 5288);
  (50717857342698242398130449132752767585406116728, 5291);
  (95349571804272695708485244369575203060563499449, 5294);
  (17935254456383694062766074465917095695691994246, 5298);
  (33754148886914112226125752144855974099292333171, 5301);
  (63559062354059273321794791288763799228967463362, 5304);
  (11974527347504767093826138678803099774737470097, 5308);
  (22571984050046485971862271409543843075380131133, 5311);
  (42570761918387672542932243878399688040166927318, 5314);
  (80331027739997538088513144198540211331794991849, 5317);
  (15166498037311535191111281624684391899442894461, 5321);
  (28649514792481489976009210989028816298047627637, 5324);
  (54147582957790016054657408769264462803310016234, 5327);
  (10239307937318092035935715998267909916105924069, 5331);
  (19372770617405830131990374668722885561272408340, 5334);
  (36672654778749236439857779247892422367488668988, 5337);
  (69458008150951053817090633895508247964023539063, 5340);
  (13162292544605224698338675123198812989182460652, 5344);
  (24955706664571506028050128033584949427489945397, 5347);
  (47340975542692146935211092879710649063948426418, 5350);
  (89853171580029694883030654285690811923374113342, 5353);
  (17063117283047639058287521248852685184248744123, 5357);
  (32419922837790514210746290372820101850072613835, 5360);
  (61630273314639767514628697998731013616988038900, 5363);
  (11722077984444483781282378359358638789951124998, 5367);
  (22307114404397852635780366017859489617276990872, 5370);
  (42472745825973511418525816898004468231295390621, 5373);
  (80910580798479539252291681190698511980617719134, 5376);
  (15421556700190200181486794434947136383505737267, 5380);
  (29408908627262711746095316987444189083345440968, 5383);
  (56112197660817254011549864812043512771023101367, 5386);
  (10711818533450013790804869192619106587988310051, 5390);
  (20459573398889526340437300157902493583057672197, 5393);
  (39098244765277884836575680601751665237223211569, 5396);
  (74755843991211315807532701310549183933570780520, 5399);
  (14300792955518724713981005760708058886492090313, 5403);
  (27371717716862839102559645025995224708745860860, 5406);
  (52416839427792336881401720224780855317248323547, 5409);
  (10043066434365011746476569595068011878784778791, 5413);
  (19252558354677727517995583913745378771630420943, 5416);
  (36926406924271881379515529946563636483987147370, 5419);
  (70861774887677740367290301967455618412771335803, 5422)].
(** factorial.const:1922-2049 *)
Definition pre_factorial_1920 : list (Z * Z) := [
  (13605460778434126150519737977751478735252096474, 5426);
  (26136090155371956335148416655260590650419277326, 5429);
  (50233565278624900076155256811410855230105851022, 5432);
  (96599146030795682846446558848343074607493551515, 5435);
  (18585675696325089379656317922421207554481759311, 5439);
  (35777425715425797055838412000660824542377386674, 5442);
  (68907321927910085129544781513272748068618846735, 5445);
  (13278440935508273404463279397607658552822851766, 5449);
  (25600834123659951123805202678587565689842458204, 5452);
  (49384009024540045717820235966995414215706101877, 5455);
  (95311137417362288235393055416301149436312776623, 5458);
  (18404580635292657858254399000887751956151997165, 5462);
  (35557649787385414982147498869715136779285658524, 5465);
  (68732937039016007160491115315159359394359177927, 5468);
  (13292950023345695784838981701951820106869065011, 5472);
  (25721858295173921343663429593276771906791640796, 5475);
  (49797517659456711721332399692583830411548616582, 5478);
  (96457791706367650604220858204534879507169670320, 5481);
  (18693520032694050687098002320038859648489482108, 5485);
  (36246735343393764282283026498555348858421105807, 5488);
  (70318666566183902707629071407197376785336945266, 5491);
  (13648853180496295515550802760137010834033901076, 5495);
  (26506072876523805891199658960186075039693835890, 5498);
  (51501299599085754846600937359641543802125123134, 5501);
  (10011852642062270742179222222714316115133123937, 5505);
  (19473053388811116593538587223179344843933926058, 5508);
  (37894561894626432891026090736307005066295420109, 5511);
  (73780712008837664838827798663589738864077182952, 5514);
  (14372482699321577110603655179667281130722235239, 5518);
  (28011968780977753788566523945171530923777636481, 5521);
  (54623339122906619887704721693084485301366391138, 5524);
  (10657013462879081540091191202320783082296582911, 5528);
  (20802490279539967166258005226930168576642929842, 5531);
  (40627263515941555875701884208194619230183641982, 5534);
  (79385672910149800181121481742812285975778836433, 5537);
  (15519899053934285935409249680719801908264762522, 5541);
  (30356922549495463289660492375487932532565875494, 5544);
  (59408497429362621657865583578829883966231418342, 5547);
  (11632183796669201320610081264734891280588111711, 5551);
  (22787448057674965387075149197615652018672110842, 5554);
  (44663398193042932158667292427326677956597337251, 5557);
  (87584923856557189963146560449987615472887378350, 5560);
  (17184162060656520670769355160287570155780503632, 5564);
  (33732510125068750076720244179644500215797128630, 5567);
  (66250649885635025150678559568821798423825560630, 5570);
  (13018252702527282442108336955273483390281722663, 5574);
  (25593884813168637281184990454067668345293866757, 5577);
  (50343171427502709532090876223151103635193035911, 5580);
  (99075361369325332359154844407161371954059894673, 5583);
  (19507938653620157941517588863770074137754393261, 5587);
  (38430639147631711144789650061627046051376154724, 5590);
  (75746789759982102666380400271466907767262400961, 5593);
  (14937266940668470645810214933533274211704145469, 5597);
  (29471227673938892584183554063861150019692279011, 5600);
  (58176203428355373961178335722061910138872558769, 5603);
  (11489800177100186357332721305107227252427330356, 5607);
  (22703845149949968242089457298891881050796404785, 5610);
  (44885501861451087214610857079909248837424492260, 5613);
  (88783522681950250510500275304060494200425645691, 5616);
  (17570259138757954576028004482673571802264235282, 5620);
  (34789113094740750060535448875693672168483185858, 5623);
  (68917233040681425869920724222749164565765191186, 5626);
  (13659395588663058607418287540948884416934660893, 5630);
  (27086581452318845218510464193701637798781432551, 5633);
  (53739777601400588913524760960304049392782362181, 5636);
  (10667345853878016899334665050620353804467298893, 5640);
  (21185348865801741562078644790532022655672055601, 5643);
  (42095288196348060483850267198787129016820374480, 5646);
  (83685432934339944241894331191188812485438904466, 5649);
  (16645032610640214909712782473927454803353798098, 5653);
  (33123614895174027670328437123115635058674058215, 5656);
  (65949117256291489091623918312123229401820049907, 5659);
  (13137064157453264627051484527774947296842553941, 5663);
  (26182168865804356401713608663855469962607210005, 5666);
  (52207244718413886665016935675727807105438776751, 5669);
  (10415345321323570389670878667307697517535035961, 5673);
  (20789029261361846497783073819946164244999931779, 5676);
  (41515691434939607456072798418432489997264863764, 5679);
  (82948351487009335697233451240028115014535197801, 5682);
  (16581375462253166205876966902881620191405586040, 5686);
  (33162750924506332411753933805763240382811172081, 5689);
  (66358664599937171155919621545332244006005155334, 5692);
  (13285004652907421665415108233375515250002232097, 5696);
  (26609864319773565595826461791451157045754470892, 5699);
  (53326168096826225454036229430068118719691959667, 5702);
  (10691896703413658203534264000728657803298237913, 5706);
  (21447944787047798356289733585461687553416265254, 5709);
  (43046025187604931301073495306021606919706444365, 5712);
  (86436418576710702052555578574491386694770540285, 5715);
  (17365076492061180042358415735615319586979401543, 5719);
  (34903803749042971885140415628586792369828597102, 5722);
  (70191549339325416461017375829088039455725308772, 5725);
  (14122539727072273791956696016812513538491932125, 5729);
  (28428672470596487143208829081843589752984259367, 5732);
  (57255346355781325106422581770832989762510298366, 5735);
  (11536952290689937008944150226822847437145825120, 5739);
  (23258495818030913010031406857274860433285983443, 5742);
  (46912386064968351541233347631123393493937828605, 5745);
  (94669195079106133410208895519607008070766538126, 5748);
  (19113710486471528335521176005408654929487764047, 5752);
  (38609695182672487237752775530925482957565283376, 5755);
  (78030193964181096707498359348000401057239437703, 5758);
  (15777705219557417754256168260165681093773814303, 5762);
  (31918297659164656116860228390315172852704426336, 5765);
  (64602634462149263980525102261997909853873758904, 5768);
  (13082033478585225956056333208054576745409436178, 5772);
  (26504199827613667786970131079518572486199517697, 5775);
  (53724013050572904604188455698184146429526422371, 5778);
  (10895229846656185053729418815591744895907958457, 5782);
  (22106421358865399474016990776835650393797247709, 5785);
  (44876035358496760932254491276976370299408412849, 5788);
  (91143227813106921453408871783539008078098486498, 5791);
  (18520303891623326439332682746415126441469612456, 5795);
  (37651777811670222651163344023461952055507722123, 5798);
  (76583716068937232872466241743721610480902706800, 5801);
  (15584786220028726889546880194847347732863700833, 5805);
  (31730624743978487947117448076709199984110494897, 5808);
  (64635282603484179948278241732256640367633078106, 5811);
  (13172670594590075873459105665033903306923621318, 5815);
  (26859075342369164705983116451004128842817263867, 5818);
  (54792513698433096000205557560048422839347218289, 5821);
  (11183152045850194893641954298005883101510767252, 5825);
  (22835996477626097972816870676528013293284986730, 5828);
  (46653940803790118158464866792146731158181227890, 5831);
  (95360655002947001515902187723147918487322429808, 5834);
  (19501253948102661810001997389383749330657436895, 5838);
  (39899565577818046063264086658679151130525115888, 5841);
  (81674410737793540291501585390316222364184912224, 5844)].
(** factorial.const:1-2049 pre_factorial *)
Definition pre_factorial : list (Z * Z) :=
  pre_factorial_0 ++ pre_factorial_128 ++ pre_factorial_256 ++ pre_factorial_384 ++ pre_factorial_512 ++ pre_factorial_640 ++ pre_factorial_768 ++ pre_factorial_896 ++ pre_factorial_1024 ++ pre_factorial_1152 ++ pre_factorial_1280 ++ pre_factorial_1408 ++ pre_factorial_1536 ++ pre_factorial_1664 ++ pre_factorial_1792 ++ pre_factorial_1920.
