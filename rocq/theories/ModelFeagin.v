(** The tableaux of Feagin's methods: nbody/nbody_solver_rkfeagin{10,12,14}.cpp.

    [dec n k] is the literal ["..."_f] with the value n / 10^k.  (In a binary format the code rounds
    the literal once, the quotient here can be rounded three times: the theorems about these tables
    are about real numbers.)  Row [i] of [get_a] points into one array; the model cuts it after the
    [i] entries that belong to it (one entry for row 0), so that reading beyond them is an error here
    while the code would read the next row.  A "nan"_f behind the last row of rkfeagin12 (line 344)
    is not reached and left out. *)
From Coq Require Import ZArith List.
From Verif Require Import Num ModelButcher.
Import ListNotations.
Local Open Scope Z_scope.
Set Implicit Arguments.

Section Feagin.
  Context {T : Type} (N : NumOps T).
  Definition dec (n : Z) (k : Z) : T := q N n (10 ^ k).

  (** nbody_solver_rkfeagin10.cpp:31-265 *)
  Definition tab_rkfeagin10 : table T :=
    {| bt_steps := 17;
       bt_a := [ [nlit N 0];
                 [dec 1 1];
                 [dec (-91517656137529144052001501927534215431895138766436972056466) 59;
                  dec 145453440217827322805250021715664459117622483736537873607016 59];
                 [dec 202259190301118170324681949205488413821477543637878380814562 60;
                  nlit N 0;
                  dec 606777570903354510974045847616465241464432630913635142443687 60];
                 [dec 184024714708643575149100693471120664216774047979591417844635 60;
                  nlit N 0;
                  dec 197966831227192369068141770510388793370637287463360401555746 60;
                  dec (-729547847313632629185146671595558023015011608914382961421311) 61];
                 [dec 879007340206681337319777094132125475918886824944548534041378 61;
                  nlit N 0;
                  nlit N 0;
                  dec 410459702520260645318174895920453426088035325902848695210406 60;
                  dec 482713753678866489204726942976896106809132737721421333413261 60];
                 [dec 85970050490246030218848022594580840141113261563660022259388 60;
                  nlit N 0;
                  nlit N 0;
                  dec 330885963040722183948884057658753173648240154838402033448632 60;
                  dec 48966295730945019284450701113589820117801547843379009721079 59;
                  dec (-731856375070850736789057580558988816340355615025188195854775) 61];
                 [dec 120930449125333720660378854927668953958938996999703678812621 60;
                  nlit N 0;
                  nlit N 0;
                  nlit N 0;
                  dec 260124675758295622809007617838335174368108756484693361887839 60;
                  dec 325402621549091330158899334391231259332716675992700000776101 61;
                  dec (-595780211817361001560122202563305121444953672762930724538856) 61];
                 [dec 110854379580391483508936171010218441909425780168656559807038 60;
                  nlit N 0;
                  nlit N 0;
                  nlit N 0;
                  nlit N 0;
                  dec (-605761488255005587620924953655516875526344415354339234619466) 61;
                  dec 32176370560177839010089879904987890408140436860307712925111 59;
                  dec 51048572560806303157775901228512341674467213703175235406759 59];
                 [dec 112054414752879004829715002761802363003717611158172229329393 60;
                  nlit N 0;
                  nlit N 0;
                  nlit N 0;
                  nlit N 0;
                  dec (-144942775902865915672349828340980777181668499748506838876185) 60;
                  dec (-333269719096256706589705211415746871709467423992115497968724) 60;
                  dec 499269229556880061353316843969978567860276816592673201240332 60;
                  dec 50950460892968610423609869004538625398664323235298960218506 59];
                 [dec 113976783964185986138004186736901163890724752541486831640341 60;
                  nlit N 0;
                  nlit N 0;
                  nlit N 0;
                  nlit N 0;
                  dec (-768813364203356938586214289120895270821349023390922987406384) 61;
                  dec 239527360324390649107711455271882373019741311201004119339563 60;
                  dec 397774662368094639047830462488952104564716416343454639902613 60;
                  dec 107558956873607455550609147441477450257136782823280838547024 61;
                  dec (-327769124164018874147061087350233395378262992392394071906457) 60];
                 [dec 798314528280196046351426864486400322758737630423413945356284 61;
                  nlit N 0;
                  nlit N 0;
                  nlit N 0;
                  nlit N 0;
                  dec (-520329686800603076514949887612959068721311443881683526937298) 61;
                  dec (-576954146168548881732784355283433509066159287152968723021864) 61;
                  dec 19478191571210416497630626214738287115614292135440936473809 59;
                  dec 145384923188325069727524825977071194859203467568236523866582 60;
                  dec (-782942710351670777553986729725692447252077047239160551335016) 61;
                  dec (-114503299361098912184303164290554670970133218405658122674674) 60];
                 [dec 985115610164857280120041500306517278413646677314195559520529 60;
                  nlit N 0;
                  nlit N 0;
                  dec 330885963040722183948884057658753173648240154838402033448632 60;
                  dec 48966295730945019284450701113589820117801547843379009721079 59;
                  dec (-137896486574843567582112720930751902353904327148559471526397) 59;
                  dec (-861164195027635666673916999665534573351026060987427093314412) 60;
                  dec 578428813637537220022999785486578436006872789689499172601856 59;
                  dec 328807761985103566890460615937314805477268252903342356581925 59;
                  dec (-238633905093136384013422325215527866148401465975954104585807) 59;
                  dec (-325479342483643918654589367587788726747711504674780680269911) 59;
                  dec (-216343541686422982353954211300054820889678036420109999154887) 59];
                 [dec 89508029577163289104961313233658513814815627924156134599171 59;
                  nlit N 0;
                  dec 197966831227192369068141770510388793370637287463360401555746 60;
                  dec (-729547847313632629185146671595558023015011608914382961421311) 61;
                  nlit N 0;
                  dec (-851236239662007619739049371445966793289359722875702227166105) 60;
                  dec 398320112318533301719718614174373643336480918103773904231856 60;
                  dec 36393726318103560602941292004709004413202738789397780417 55;
                  dec 154822877039830322365301663075174564919981736348973496313065 59;
                  dec (-212221714704053716026062427460427261025318461146260124401561) 59;
                  dec (-158350398545326172713384349625753212757269188934434237975291) 59;
                  dec (-171561608285936264922031819751349098912615880827551992973034) 59;
                  dec (-244036405750127452135415444412216875465593598370910566069132) 61];
                 [dec (-91517656137529144052001501927534215431895138766436972056466) 59;
                  dec 145453440217827322805250021715664459117622483736537873607016 59;
                  nlit N 0;
                  nlit N 0;
                  dec (-777333643644968233538931228575302137803351053629547286334469) 60;
                  nlit N 0;
                  dec (-910895662155176069593203555807484200111889091770101799647985) 61;
                  nlit N 0;
                  nlit N 0;
                  nlit N 0;
                  nlit N 0;
                  nlit N 0;
                  dec 910895662155176069593203555807484200111889091770101799647985 61;
                  dec 777333643644968233538931228575302137803351053629547286334469 60];
                 [dec 1 1;
                  nlit N 0;
                  dec (-157178665799771163367058998273128921867183754126709419409654) 60;
                  nlit N 0;
                  nlit N 0;
                  nlit N 0;
                  nlit N 0;
                  nlit N 0;
                  nlit N 0;
                  nlit N 0;
                  nlit N 0;
                  nlit N 0;
                  nlit N 0;
                  nlit N 0;
                  dec 157178665799771163367058998273128921867183754126709419409654 60];
                 [dec 181781300700095283888472062582262379650443831463199521664945 60;
                  dec 675 3;
                  dec 34275815984718983994222055341385087174233873470395891993726 59;
                  nlit N 0;
                  dec 259111214548322744512977076191767379267783684543182428778156 60;
                  dec (-358278966717952089048961276721979397739750634673268802484271) 60;
                  dec (-10459489594088330609505006875640990513158812317237848928608) 58;
                  dec 930327845415626983292300564432428777137601651182965794680397 60;
                  dec 177950959431708102446142106794824453926275743243327790536 56;
                  dec 1 1;
                  dec (-282547569539044081612477785222287276408489375976211189952877) 60;
                  dec (-159327350119972549169261984373485859278031542127551931461821) 60;
                  dec (-145515894647001510860991961081084111308650130578626404945571) 60;
                  dec (-259111214548322744512977076191767379267783684543182428778156) 60;
                  dec (-34275815984718983994222055341385087174233873470395891993726) 59;
                  dec (-675) 3] ];
       bt_b1 := [dec 333333333333333333333333333333333333333333333333333333333333 61;
                 dec 277777777777777777777777777777777777777777777777777777777778 61;
                 dec 333333333333333333333333333333333333333333333333333333333333 61;
                 nlit N 0;
                 dec 5 2;
                 nlit N 0;
                 dec 4 2;
                 nlit N 0;
                 dec 189237478148923490158306404106012326238162346948625830327194 60;
                 dec 277429188517743176508360262560654340428504319718040836339472 60;
                 dec 277429188517743176508360262560654340428504319718040836339472 60;
                 dec 189237478148923490158306404106012326238162346948625830327194 60;
                 dec (-4) 2;
                 dec (-5) 2;
                 dec (-333333333333333333333333333333333333333333333333333333333333) 61;
                 dec (-277777777777777777777777777777777777777777777777777777777778) 61;
                 dec 333333333333333333333333333333333333333333333333333333333333 61];
       bt_b2 := [dec 333333333333333333333333333333333333333333333333333333333333 61;
                 dec 25 3;
                 dec 333333333333333333333333333333333333333333333333333333333333 61;
                 nlit N 0;
                 dec 5 2;
                 nlit N 0;
                 dec 4 2;
                 nlit N 0;
                 dec 189237478148923490158306404106012326238162346948625830327194 60;
                 dec 277429188517743176508360262560654340428504319718040836339472 60;
                 dec 277429188517743176508360262560654340428504319718040836339472 60;
                 dec 189237478148923490158306404106012326238162346948625830327194 60;
                 dec (-4) 2;
                 dec (-5) 2;
                 dec (-333333333333333333333333333333333333333333333333333333333333) 61;
                 dec (-25) 3;
                 dec 333333333333333333333333333333333333333333333333333333333333 61];
       bt_c := [nlit N 0;
                dec 1 1;
                dec 5393578408029817875324851978813024368572734497010090155055 58;
                dec 80903676120447268129872779682195365528591017455151352325825 59;
                dec 30903676120447268129872779682195365528591017455151352325825 59;
                dec 981074190219795268254879548310562080489056746118724882027805 60;
                dec 833333333333333333333333333333333333333333333333333333333333 60;
                dec 354017365856802376329264185948796742115824053807373968324184 60;
                dec 882527661964732346425501486979669075182867844268052119663791 60;
                dec 642615758240322548157075497020439535959501736363212695909875 60;
                dec 357384241759677451842924502979560464040498263636787304090125 60;
                dec 117472338035267653574498513020330924817132155731947880336209 60;
                dec 833333333333333333333333333333333333333333333333333333333333 60;
                dec 30903676120447268129872779682195365528591017455151352325825 59;
                dec 5393578408029817875324851978813024368572734497010090155055 58;
                dec 1 1;
                nlit N 1];
       bt_implicit := false; bt_embedded := true |}.

  (** nbody_solver_rkfeagin12.cpp:43-446 *)
  Definition tab_rkfeagin12 : table T :=
    {| bt_steps := 25;
       bt_a := [ [nlit N 0];
                 [dec 2 1];
                 [dec (-216049382716049382716049382716049382716049382716049382716049) 60;
                  dec 771604938271604938271604938271604938271604938271604938271605 60];
                 [dec 208333333333333333333333333333333333333333333333333333333333 60;
                  nlit N 0;
                  dec 625 3];
                 [dec 193333333333333333333333333333333333333333333333333333333333 60;
                  nlit N 0;
                  dec 22 2;
                  dec (-8) 2];
                 [dec 1 1;
                  nlit N 0;
                  nlit N 0;
                  dec 4 1;
                  dec 5 1];
                 [dec 103364471650010477570395435690481791543342708330349879244197 60;
                  nlit N 0;
                  nlit N 0;
                  dec 124053094528946761061581889237115328211074784955180298044074 60;
                  dec 48317116756103289928883648045196250872410925751728917730238 59;
                  dec (-38753024569476325208568144376762058039573330234136803880429) 60];
                 [dec 12403826143183332408190458598017516814002467069863361229248 59;
                  nlit N 0;
                  nlit N 0;
                  nlit N 0;
                  dec 217050632197958486317846256953159942875916353757734167684657 60;
                  dec 137455792075966759812907801835048190594443990939408530842918 61;
                  dec (-661095317267682844455831341498149531672668252085016565917546) 61];
                 [dec 914774894856882983144991846980432197088832099976660100090486 61;
                  nlit N 0;
                  nlit N 0;
                  nlit N 0;
                  nlit N 0;
                  dec (-544348523717469689965754944144838611346156873847009178068318) 62;
                  dec 680716801688453518578515120895103863112751730758794372203952 61;
                  dec 408394315582641046727306852653894780093303185664924644551239 60];
                 [dec 890013652502551018954509355423841780143232697403434118692699 61;
                  nlit N 0;
                  nlit N 0;
                  nlit N 0;
                  nlit N 0;
                  dec 49952822664553236019779340842069280040589114940681409195581 61;
                  dec 397918238819828997341739603001347156083435060931424970826304 60;
                  dec 427930210752576611068192608300897981558240730580396406312359 60;
                  dec (-865117637557827005740277475955029103267246394128995965941585) 61];
                 [dec 695087624134907543112693906409809822706021061685544615255758 61;
                  nlit N 0;
                  nlit N 0;
                  nlit N 0;
                  nlit N 0;
                  dec 129146941900176461970759579482746551122871751501482634045487 60;
                  dec 153073638102311295076342566143214939031177504112433874313011 59;
                  dec 577874761129140052546751349454576715334892100418571882718036 60;
                  dec (-951294772321088980532340837388859453930924498799228648050949) 60;
                  dec (-408276642965631951497484981519757463459627174520978426909934) 60];
                 [dec 444861403295135866269453507092463581620165501018684152933313 61;
                  nlit N 0;
                  nlit N 0;
                  nlit N 0;
                  nlit N 0;
                  dec (-380476867056961731984232686574547203016331563626856065717964) 62;
                  dec 106955064029624200721262602809059154469206077644957399593972 61;
                  dec 209616244499904333296674205928919920806734650660039898074652 61;
                  dec (-233146023259321786648561431551978077665337818756053603898847) 61;
                  dec 263265981064536974369934736325334761174975280887405725010964 62;
                  dec 315472768977025060103545855572111407955208306374459723959783 62];
                 [dec 194588815119755475588801096525317761242073762016273186231215 61;
                  nlit N 0;
                  nlit N 0;
                  nlit N 0;
                  nlit N 0;
                  nlit N 0;
                  nlit N 0;
                  nlit N 0;
                  dec 678512949171812509306121653452367476194364781259165332321534 64;
                  dec (-42979585904927362327100533023016234356886338772488360367555) 63;
                  dec 176358982260285155407485928953302139937553442829975734148981 64;
                  dec 653866627415027051009595231385181033549511358787382098351924 61];
                 [dec 206836835664277105916828174798272361078909196043446411598231 60;
                  nlit N 0;
                  nlit N 0;
                  nlit N 0;
                  nlit N 0;
                  nlit N 0;
                  nlit N 0;
                  nlit N 0;
                  dec 166796067104156472828045866664696450306326505094792505215514 61;
                  dec (-879501563200710214457024178249986591130234990219959208704979) 62;
                  dec 346675455362463910824462315246379209427513654098596403637231 62;
                  dec (-861264460105717678161432562258351242030270498966891201799225) 60;
                  dec 908651882074050281096239478469262145034957129939256789178785 60];
                 [dec 203926084654484010091511314676925686038504449562413004562382 61;
                  nlit N 0;
                  nlit N 0;
                  nlit N 0;
                  nlit N 0;
                  nlit N 0;
                  nlit N 0;
                  nlit N 0;
                  dec 869469392016685948675400555583947505833954460930940959577347 61;
                  dec (-191649630410149842286436611791405053287170076602337673587681) 61;
                  dec 655629159493663287364871573244244516034828755253746024098838 62;
                  dec 987476128127434780903798528674033899738924968006632201445462 61;
                  dec 535364695524996055083260173615567408717110247274021056118319 62;
                  dec 301167864010967916837091303817051676920059229784957479998077 60];
                 [dec 228410433917778099547115412893004398779136994596948545722283 60;
                  nlit N 0;
                  nlit N 0;
                  nlit N 0;
                  nlit N 0;
                  nlit N 0;
                  nlit N 0;
                  nlit N 0;
                  dec (-498707400793025250635016567442511512138603770959682292383042) 60;
                  dec 134841168335724478552596703792570104791700727205981058201689 60;
                  dec (-38745824405583415843990422692402923093516105914280680567436) 60;
                  dec (-127473257473474844240388430824908952380979292713250350199641) 59;
                  dec 143916364462877165201184452437038081875299303577911839630524 59;
                  dec (-214007467967990254219503540827349569639028092344812795499026) 60;
                  dec 958202417754430239892724139109781371059908874605153648768037 60];
                 [dec 200222477655974203614249646012506747121440306225711721209798 59;
                  nlit N 0;
                  nlit N 0;
                  nlit N 0;
                  nlit N 0;
                  nlit N 0;
                  nlit N 0;
                  nlit N 0;
                  dec 206701809961524912091954656438138595825411859673341600679555 59;
                  dec 62397813608613954195747127983149446615529231616702108066314 59;
                  dec (-462283685500311430283203554129062069391947101880112723185773) 61;
                  dec (-88497328836264961486007524672711894928660483545709270109463) 58;
                  dec 774257707850855976227437225791835589560188590785037197433615 59;
                  dec (-588358519250869210993353314127711745644125882130941202896436) 60;
                  dec (-110683733362380649395704708016953056176195769617014899442903) 59;
                  dec (-929529037579203999778397238291233214220788057511899747507074) 60];
                 [dec 31378953341207344293445160898988879680816125933032210026831 58;
                  nlit N 0;
                  nlit N 0;
                  nlit N 0;
                  nlit N 0;
                  dec 129146941900176461970759579482746551122871751501482634045487 60;
                  dec 153073638102311295076342566143214939031177504112433874313011 59;
                  dec 577874761129140052546751349454576715334892100418571882718036 60;
                  dec 542088263055126683050056840891857421941300558851862156403363 59;
                  dec 231546926034829304872663800877643660904880180835945693836936 60;
                  dec 759292995578913560162301311785251873561801342333194895292058 61;
                  dec (-123729973380186513287414553402595806591349822617535905976253) 58;
                  dec 985455883464769543935957209317369202080367765721777101906955 59;
                  dec 85911143137043652957935770905236777288998049512232960115954 60;
                  dec (-565242752862643921117182090081762761180392602644189218673969) 59;
                  dec (-194300935242819610883833776782364287728724899124166920477873) 59;
                  dec (-128352601849404542018428714319344620742146491335612353559923) 60];
                 [dec 138360054432196014878538118298167716825163268489922519995564 59;
                  nlit N 0;
                  nlit N 0;
                  nlit N 0;
                  nlit N 0;
                  dec 49952822664553236019779340842069280040589114940681409195581 61;
                  dec 397918238819828997341739603001347156083435060931424970826304 60;
                  dec 427930210752576611068192608300897981558240730580396406312359 60;
                  dec (-130299107424475770916551439123047573342071475998399645982146) 59;
                  dec 661292278669377029097112528107513072734573412294008071500699 60;
                  dec (-144559774306954349765969393688703463900585822441545655530145) 60;
                  dec (-696576034731798203467853867461083919356792248105919255460819) 59;
                  dec 665808543235991748353408295542210450632193197576935120716437 59;
                  dec (-166997375108841486404695805725510845049807969199236227575796) 59;
                  dec 206413702318035263832289040301832647130604651223986452170089 59;
                  dec (-674743962644306471862958129570837723192079875998405058648892) 60;
                  dec (-115618834794939500490703608435907610059605754935305582045729) 62;
                  dec (-544057908677007389319819914241631024660726585015012485938593) 62];
                 [dec 951236297048287669474637975894973552166903378983475425758226 60;
                  nlit N 0;
                  nlit N 0;
                  nlit N 0;
                  dec 217050632197958486317846256953159942875916353757734167684657 60;
                  dec 137455792075966759812907801835048190594443990939408530842918 61;
                  dec (-661095317267682844455831341498149531672668252085016565917546) 61;
                  nlit N 0;
                  dec 152281696736414447136604697040747131921486432699422112099617 60;
                  dec (-33774101835759984080230079313399800435464342445753966767008) 59;
                  dec (-192825981633995781534949199286824400469353110630787982121133) 61;
                  dec (-368259269696866809932409015535499603576312120746888880201882) 59;
                  dec 316197870406982063541533528419683854018352080342887002331312 59;
                  dec (-370462522106885290716991856022051125477943482284080569177386) 60;
                  dec (-514974200365440434996434456698127984941168616474316871020314) 61;
                  dec (-829625532120152946787043541792848416659382675202720677536554) 63;
                  dec 279801041419278598986586589070027583961355402640879503213503 65;
                  dec 418603916412360287969841020776788461794119440689356178942252 61;
                  dec 279084255090877355915660874555379649966282167560126269290222 60];
                 [dec 103364471650010477570395435690481791543342708330349879244197 60;
                  nlit N 0;
                  nlit N 0;
                  dec 124053094528946761061581889237115328211074784955180298044074 60;
                  dec 48317116756103289928883648045196250872410925751728917730238 59;
                  dec (-38753024569476325208568144376762058039573330234136803880429) 60;
                  nlit N 0;
                  dec (-438313820361122420391059788940960176420682836652600698580091) 60;
                  nlit N 0;
                  dec (-218636633721676647685111485017151199362509373698288330593486) 60;
                  dec (-312334764394719229981634995206440349766174759626578122323015) 61;
                  nlit N 0;
                  nlit N 0;
                  nlit N 0;
                  nlit N 0;
                  nlit N 0;
                  nlit N 0;
                  dec 312334764394719229981634995206440349766174759626578122323015 61;
                  dec 218636633721676647685111485017151199362509373698288330593486 60;
                  dec 438313820361122420391059788940960176420682836652600698580091 60];
                 [dec 193333333333333333333333333333333333333333333333333333333333 60;
                  nlit N 0;
                  dec 22 2;
                  dec (-8) 2;
                  nlit N 0;
                  nlit N 0;
                  dec 984256130499315928152900286856048243348202521491288575952143 61;
                  dec (-196410889223054653446526504390100417677539095340135532418849) 60;
                  nlit N 0;
                  dec 436457930493068729391826122587949137609670676712525034763317 60;
                  dec 65261372167572109856037093980555569835054381070841471673027 60;
                  nlit N 0;
                  nlit N 0;
                  nlit N 0;
                  nlit N 0;
                  nlit N 0;
                  nlit N 0;
                  dec (-65261372167572109856037093980555569835054381070841471673027) 60;
                  dec (-436457930493068729391826122587949137609670676712525034763317) 60;
                  dec 196410889223054653446526504390100417677539095340135532418849 60;
                  dec (-984256130499315928152900286856048243348202521491288575952143) 61];
                 [dec (-216049382716049382716049382716049382716049382716049382716049) 60;
                  dec 771604938271604938271604938271604938271604938271604938271605 60;
                  nlit N 0;
                  nlit N 0;
                  dec (-666666666666666666666666666666666666666666666666666666666667) 60;
                  nlit N 0;
                  dec (-390696469295978451446999802258495981249099665294395945559163) 60;
                  nlit N 0;
                  nlit N 0;
                  nlit N 0;
                  nlit N 0;
                  nlit N 0;
                  nlit N 0;
                  nlit N 0;
                  nlit N 0;
                  nlit N 0;
                  nlit N 0;
                  nlit N 0;
                  nlit N 0;
                  nlit N 0;
                  dec 390696469295978451446999802258495981249099665294395945559163 60;
                  dec 666666666666666666666666666666666666666666666666666666666667 60];
                 [dec 2 1;
                  nlit N 0;
                  dec (-164609053497942386831275720164609053497942386831275720164609) 60;
                  nlit N 0;
                  nlit N 0;
                  nlit N 0;
                  nlit N 0;
                  nlit N 0;
                  nlit N 0;
                  nlit N 0;
                  nlit N 0;
                  nlit N 0;
                  nlit N 0;
                  nlit N 0;
                  nlit N 0;
                  nlit N 0;
                  nlit N 0;
                  nlit N 0;
                  nlit N 0;
                  nlit N 0;
                  nlit N 0;
                  nlit N 0;
                  dec 164609053497942386831275720164609053497942386831275720164609 60];
                 [dec 147178724881110408452949550989023611293535315518571691939396 59;
                  dec 7875 4;
                  dec 421296296296296296296296296296296296296296296296296296296296 60;
                  nlit N 0;
                  dec 291666666666666666666666666666666666666666666666666666666667 60;
                  nlit N 0;
                  dec 348600717628329563206854421629657569274689947367847465753757 60;
                  dec 22949954476899484958289023371055544707382356966650670066251 59;
                  dec 579046485790481979159831978177003471098279506036722411333192 59;
                  dec 418587511856506868874073759426596207226461447604248151080016 60;
                  dec 307039880222474002649653817490106690389251482313213999386651 60;
                  dec (-468700905350603332214256344683853248065574415794742040470287) 59;
                  dec 313571665593802262152038152399873856554395436199962915429076 59;
                  dec 140134829710965720817510506275620441055845017313930508348898 59;
                  dec (-55293110143949902362901030600576433642127605577765815640091) 58;
                  dec (-853138235508063349309546894974784906188927508039552519557498) 60;
                  dec 103575780373610140411804607167772795518293914458500175573749 60;
                  dec (-140474416950600941142546901202132534870665923700034957196546) 60;
                  dec (-418587511856506868874073759426596207226461447604248151080016) 60;
                  dec (-22949954476899484958289023371055544707382356966650670066251) 59;
                  dec (-348600717628329563206854421629657569274689947367847465753757) 60;
                  dec (-291666666666666666666666666666666666666666666666666666666667) 60;
                  dec (-421296296296296296296296296296296296296296296296296296296296) 60;
                  dec (-7875) 4] ];
       bt_b1 := [dec 238095238095238095238095238095238095238095238095238095238095 61;
                 nadd N (dec 234375 7) (q N 49 640);
                 dec 3125 5;
                 nlit N 0;
                 dec 416666666666666666666666666666666666666666666666666666666667 61;
                 nlit N 0;
                 dec 5 2;
                 dec 5 2;
                 nlit N 0;
                 dec 1 1;
                 dec 714285714285714285714285714285714285714285714285714285714286 61;
                 nlit N 0;
                 dec 138413023680782974005350203145033146748813640089941234591267 60;
                 dec 215872690604931311708935511140681138965472074195773051123019 60;
                 dec 24380952380952380952380952380952380952380952380952380952381 59;
                 dec 215872690604931311708935511140681138965472074195773051123019 60;
                 dec 138413023680782974005350203145033146748813640089941234591267 60;
                 dec (-714285714285714285714285714285714285714285714285714285714286) 61;
                 dec (-1) 1;
                 dec (-5) 2;
                 dec (-5) 2;
                 dec (-416666666666666666666666666666666666666666666666666666666667) 61;
                 dec (-3125) 5;
                 nsub N (dec (-234375) 7) (q N 49 640);
                 dec 238095238095238095238095238095238095238095238095238095238095 61];
       bt_b2 := [dec 238095238095238095238095238095238095238095238095238095238095 61;
                 dec 234375 7;
                 dec 3125 5;
                 nlit N 0;
                 dec 416666666666666666666666666666666666666666666666666666666667 61;
                 nlit N 0;
                 dec 5 2;
                 dec 5 2;
                 nlit N 0;
                 dec 1 1;
                 dec 714285714285714285714285714285714285714285714285714285714286 61;
                 nlit N 0;
                 dec 138413023680782974005350203145033146748813640089941234591267 60;
                 dec 215872690604931311708935511140681138965472074195773051123019 60;
                 dec 24380952380952380952380952380952380952380952380952380952381 59;
                 dec 215872690604931311708935511140681138965472074195773051123019 60;
                 dec 138413023680782974005350203145033146748813640089941234591267 60;
                 dec (-714285714285714285714285714285714285714285714285714285714286) 61;
                 dec (-1) 1;
                 dec (-5) 2;
                 dec (-5) 2;
                 dec (-416666666666666666666666666666666666666666666666666666666667) 61;
                 dec (-3125) 5;
                 dec (-234375) 7;
                 dec 238095238095238095238095238095238095238095238095238095238095 61];
       bt_c := [nlit N 0;
                dec 2 1;
                dec 555555555555555555555555555555555555555555555555555555555556 60;
                dec 833333333333333333333333333333333333333333333333333333333333 60;
                dec 333333333333333333333333333333333333333333333333333333333333 60;
                nlit N 1;
                dec 671835709170513812712245661002797570438953420568682550710222 60;
                dec 288724941110620201935458488967024976908118598341806976469674 60;
                dec 5625 4;
                dec 833333333333333333333333333333333333333333333333333333333333 60;
                dec 947695431179199287562380162101836721649589325892740646458322 60;
                dec 548112876863802643887753674810754475842153612931128785028369 61;
                dec 848880518607165350639838930162674302064148175640019542045934 61;
                dec 265575603264642893098114059045616835297201264164077621448665 60;
                dec 5 1;
                dec 734424396735357106901885940954383164702798735835922378551335 60;
                dec 915111948139283464936016106983732569793585182435998045795407 60;
                dec 947695431179199287562380162101836721649589325892740646458322 60;
                dec 833333333333333333333333333333333333333333333333333333333333 60;
                dec 288724941110620201935458488967024976908118598341806976469674 60;
                dec 671835709170513812712245661002797570438953420568682550710222 60;
                dec 333333333333333333333333333333333333333333333333333333333333 60;
                dec 555555555555555555555555555555555555555555555555555555555556 60;
                dec 2 1;
                nlit N 1];
       bt_implicit := false; bt_embedded := true |}.

  (** nbody_solver_rkfeagin14.cpp:42-768 *)
  Definition tab_rkfeagin14 : table T :=
    {| bt_steps := 35;
       bt_a := [ [nlit N 0];
                 [dec 111111111111111111111111111111111111111111111111111111111111 60];
                 [dec (-833333333333333333333333333333333333333333333333333333333333) 60;
                  dec 138888888888888888888888888888888888888888888888888888888889 59];
                 [dec 208333333333333333333333333333333333333333333333333333333333 60;
                  nlit N 0;
                  dec 625 3];
                 [dec 193333333333333333333333333333333333333333333333333333333333 60;
                  nlit N 0;
                  dec 22 2;
                  dec (-8) 2];
                 [dec 1 1;
                  nlit N 0;
                  nlit N 0;
                  dec 4 1;
                  dec 5 1];
                 [dec 103484561636679776672993546511910344499744798201971316606663 60;
                  nlit N 0;
                  nlit N 0;
                  dec 122068887306407222589644082868962077139592714834162134741275 60;
                  dec 482574490331246622475134780125688112865919023850168049679402 60;
                  dec (-38140960001560699973088624000562020566411307247841147742197) 60];
                 [dec 124380526654094412881516420868799316268491466359671423163289 60;
                  nlit N 0;
                  nlit N 0;
                  nlit N 0;
                  dec 226120282197584301422238662979202901196752320742633143965145 60;
                  dec 137885887618080880607695837016477814530969417491493385363543 61;
                  dec (-6722101339966844497493995074143058569500863415253821828562) 59];
                 [dec 936919065659673815530885456083005933866349695217750085655603 61;
                  nlit N 0;
                  nlit N 0;
                  nlit N 0;
                  nlit N 0;
                  dec (-613406843450510987229498995641664735620914507128858871007099) 62;
                  dec 216019825625503063708860097659866573490979433278117320188668 60;
                  dec 423695063515761937337619073960976753205867469544123532683116 60];
                 [dec 838479812409052664616968791372814085980533139224911131069335 61;
                  nlit N 0;
                  nlit N 0;
                  nlit N 0;
                  nlit N 0;
                  dec (-117949367100973814319755056031295775367961960590736150777613) 61;
                  dec (-247299020568812652339473838743194598325992840353340132697498) 60;
                  dec 978080858367729012259313014081291665503740655476733940756599 61;
                  dec 217590689243420631360008651767860318344168120024782176879989 60];
                 [dec 61525535976942822795456238961431471433342396906482110745394 60;
                  nlit N 0;
                  nlit N 0;
                  nlit N 0;
                  nlit N 0;
                  dec 59223278032450330804299000579804652473838956044425713683499 61;
                  dec 470326159963841112217224303205894113455362530746108825010848 60;
                  dec 299688863848679000853981837096192399136831121671781279184194 60;
                  dec (-247656877593994914689992276329810825853958069263947095548189) 60;
                  dec 110895029771437682893999851839061714522445173600678718208625 60];
                 [dec 419700073362782579861792864787277787213483656543104611245994 61;
                  nlit N 0;
                  nlit N 0;
                  nlit N 0;
                  nlit N 0;
                  dec (-317987696266205093901912847692712407988609169703103952205634) 62;
                  dec 806397714906192077260821711520379506393543111567419750119748 60;
                  dec 975983126412388979093522850684288851314672048003054550357187 61;
                  dec 778575578158398909027512446452927238999763460594181964958853 60;
                  dec 204890423831599428189499202098105603312029235081420653574829 60;
                  dec (-156261579627468188307070943950527825211462892236424360892806) 59];
                 [dec 437726782233730163574465242495339811688214967071614123256973 61;
                  nlit N 0;
                  nlit N 0;
                  nlit N 0;
                  nlit N 0;
                  nlit N 0;
                  nlit N 0;
                  nlit N 0;
                  dec 62436502752019520879435862858093362528163121690309591720125 61;
                  dec 200043097109577314994435165469647856829066232218264969608768 60;
                  dec (-805328367804983036823857162048902911923392887337029314844206) 62;
                  dec 211517528067396521915711903523399601316877825157550573051221 61];
                 [dec 283499250363514563095023591920717312247137654896477097768495 61;
                  nlit N 0;
                  nlit N 0;
                  nlit N 0;
                  nlit N 0;
                  nlit N 0;
                  nlit N 0;
                  nlit N 0;
                  dec 249163204855817407538949148805995149459884653585417680098222 62;
                  dec 230138787854593149638399846373742768772087122638142234223658 61;
                  dec (-322155956692977098724476092467120878189463604760620461043308) 62;
                  dec 988442549447664668946335414487885256040819982786014648129297 62;
                  dec (-213010771328887351384307642875927384886634565429572466632092) 61];
                 [dec 343511894290243001049432234735147943083353174980701426268122 60;
                  nlit N 0;
                  nlit N 0;
                  nlit N 0;
                  nlit N 0;
                  nlit N 0;
                  nlit N 0;
                  nlit N 0;
                  dec 210451912023627385609097011999010655788807405225626700040882 60;
                  dec 103427452057230411936482926828825709938667999698324740166559 59;
                  dec 600303645864422487051240448206640574939078092406156945568306 62;
                  dec 855938125099619537578012106002407728915062652616416005816477 60;
                  dec (-977235005036766810872264852372525633013107656892839677696022) 60;
                  dec (-660026980479294694616225013856327693720573981219974874776419) 60];
                 [dec (-143574001672168069538206399935076366657755954378399880691949) 61;
                  nlit N 0;
                  nlit N 0;
                  nlit N 0;
                  nlit N 0;
                  nlit N 0;
                  nlit N 0;
                  nlit N 0;
                  dec (-366253270049039970293685796848974791733119081733552207318285) 61;
                  dec 350254975636213681976849406979846524346789082471103574920148 61;
                  dec 360946016362113508931786658758335239823689929864237671348749 61;
                  dec (-265219967553681106351595946834601923649627012457464284442911) 61;
                  dec 445699011305698119638911537508839908104336323082226770910408 61;
                  dec 124343093331358243286225595741786448038973408895106741855721 60;
                  dec 413829693239480694403512496204335960426192908674476033832967 62];
                 [dec 356032404425120290975609116398089176264106222379748802654822 60;
                  nlit N 0;
                  nlit N 0;
                  nlit N 0;
                  nlit N 0;
                  nlit N 0;
                  nlit N 0;
                  nlit N 0;
                  dec (-450192758947562595966821779075956175110645100214763601190349) 60;
                  dec 430527907083710898626656292808782917793030154094709462877146 60;
                  dec 511973029011022237668556960394071692077125787030651386389972 60;
                  dec 908303638886404260390159124638110213997496214819904630546596 60;
                  dec (-12392109337193393175737246915153402885441388924860572618652) 58;
                  dec (-649048661671761465141672348879062553905402831967191097656668) 60;
                  dec 251708904586819292210480529948970541404887852931447491219418 60;
                  dec 779906470345586398810756795282334476023540593411550187024263 60];
                 [dec 130935687406513066406881206418834980127470438213192487844956 61;
                  nlit N 0;
                  nlit N 0;
                  nlit N 0;
                  nlit N 0;
                  nlit N 0;
                  nlit N 0;
                  nlit N 0;
                  nlit N 0;
                  nlit N 0;
                  nlit N 0;
                  nlit N 0;
                  dec (-932053067985113945908461962767108237858631509684667142124826) 64;
                  dec 505374334262299359640090443138590726770942344716122381702746 61;
                  dec 804470341944487979109579109610197797641311868930865361048975 66;
                  dec 591726029494171190528755742777717259844340971924321528178248 63;
                  dec (-401614722154557337064691684906375587732264247950093804676867) 66];
                 [dec 207926484466053012541944544000765652167255206144373407979758 61;
                  nlit N 0;
                  nlit N 0;
                  nlit N 0;
                  nlit N 0;
                  nlit N 0;
                  nlit N 0;
                  nlit N 0;
                  nlit N 0;
                  nlit N 0;
                  nlit N 0;
                  nlit N 0;
                  dec 582695918800085915101902697837284108951406103029871570103075 63;
                  dec (-801700732358815939083342186525852746640558465919633524655451) 62;
                  dec 403847643847136940375170821743560570484117290330895506618968 65;
                  dec 854609998055506144225056114567535602510114622033622491802597 61;
                  dec (-204486480935804242706707569691004307904442837552677456232848) 65;
                  dec 105328578824431893399799402979093997354240904235172843146582 60];
                 [dec 140153449795736021415446247355771306718486452917597731683689 59;
                  nlit N 0;
                  nlit N 0;
                  nlit N 0;
                  nlit N 0;
                  nlit N 0;
                  nlit N 0;
                  nlit N 0;
                  nlit N 0;
                  nlit N 0;
                  nlit N 0;
                  nlit N 0;
                  dec (-230252000984221261616272410367415621261130298274455611733277) 60;
                  dec (-721106840466912905659582237106874247165856493509961561958267) 59;
                  dec 372901560694836335236995327852132340217759566678662385552634 62;
                  dec (-471415495727125020678778179392224757011323373221820091641216) 59;
                  dec (-176367657545349242053841995032797673574903886695600132759652) 62;
                  dec 764130548038698765563029310880237651185173367813936997648198 59;
                  dec 350602043659751834989896082949744710968212949893375368243588 59];
                 [dec 119514650694120686799372385830716401674473610826553517297976 58;
                  nlit N 0;
                  nlit N 0;
                  nlit N 0;
                  nlit N 0;
                  nlit N 0;
                  nlit N 0;
                  nlit N 0;
                  nlit N 0;
                  nlit N 0;
                  nlit N 0;
                  nlit N 0;
                  dec 779480932108175968783516700231764388220284279598980948538579 59;
                  dec (-564501393867325792523560991120904281440468100061340556540132) 58;
                  dec 912376306930644901344530449290276645709607450403673704844997 61;
                  dec (-127336279925434886201945524309199275038162717529918963305155) 58;
                  dec (-396895921904719712313542810939736674712383070433147873009352) 61;
                  dec 544392141883570886996225765155307791861438378423305337073797 58;
                  dec (-364411637921569236846406990361350645806721478409266709351203) 59;
                  dec (-804503249910509910899030787958579499315694913210787878260459) 60];
                 [dec (-14880942650710048842783886826864762556193061208214859707669) 56;
                  nlit N 0;
                  nlit N 0;
                  nlit N 0;
                  nlit N 0;
                  nlit N 0;
                  nlit N 0;
                  nlit N 0;
                  nlit N 0;
                  nlit N 0;
                  nlit N 0;
                  nlit N 0;
                  dec (-917295278291256484357935662402321623495228729036354276506427) 58;
                  dec 707656144971598359834575719286335716154821128966649565194286 57;
                  dec (-11056361185748244090529696131159093080133830894263776955554) 58;
                  dec 176134591883811372587859898076055660406999516762301689616841 57;
                  dec 491384824214880662268898345164454557416884631402764792538746 60;
                  dec (-684278000449814944358237535610895081956077167893600278300805) 57;
                  dec 279910604998398258984224332124380407446002518400668657974589 58;
                  dec 131939710030282333443670964371153238435064159623744975073252 58;
                  dec 125128781283980445450114974148056006317268830077396406361417 59];
                 [dec (-967307946948196763644126118433219395839951408571877262880482) 59;
                  nlit N 0;
                  nlit N 0;
                  nlit N 0;
                  nlit N 0;
                  nlit N 0;
                  nlit N 0;
                  nlit N 0;
                  nlit N 0;
                  nlit N 0;
                  nlit N 0;
                  nlit N 0;
                  dec (-446990150858505531443846227701960360497830681408751431146712) 59;
                  dec 455127128690952681968241950400052751178905907817398483534845 58;
                  dec (-713085086183826912791492024438246129930559805352394367050813) 61;
                  dec 11227361406841274158259062447993938420782680077679448505154 57;
                  dec 126244376717622724516237912909138809361786889819105426371393 60;
                  dec (-435439339549483313605810624907242107623814304467621407753424) 58;
                  dec 787174307543058978398792994996550902064546091443233850464377 60;
                  dec 532264696744684215669300708603886690785395776821503851830821 60;
                  dec 422422733996325326010225127471388772575086538809603346825334 60;
                  dec 859131249503067107308438031499859443441115056294154956487671 61];
                 [dec (-100664032447054702403396606900426891472202824757968765569183) 58;
                  nlit N 0;
                  nlit N 0;
                  nlit N 0;
                  nlit N 0;
                  nlit N 0;
                  nlit N 0;
                  nlit N 0;
                  dec (-366253270049039970293685796848974791733119081733552207318285) 61;
                  dec 350254975636213681976849406979846524346789082471103574920148 61;
                  dec 360946016362113508931786658758335239823689929864237671348749 61;
                  dec (-265219967553681106351595946834601923649627012457464284442911) 61;
                  dec (-627088972181464143590553149478871603839356122957396018530209) 59;
                  dec 482079237442562989090702103008195063923492593141636117832993 58;
                  dec (-694471689136165640882395180583732834557754169149088630301342) 61;
                  dec 126810690204850295698341370913609807066108483811412127009785 58;
                  dec 119671168968323754838161435501011294100927813964199613229864 61;
                  dec (-467249764992482408003358268242662695593201321659795608950429) 58;
                  dec 133029613326626711314710039298216591399033511191227101321435 59;
                  dec 10076678750339829835343890361992665777116271779366171970837 58;
                  dec 209512051933665091664122388475480702892770753864487241177616 61;
                  dec 210134706331264177317735424331396407424412188443757490871603 61;
                  dec 952196014417121794175101542454575907376360233658356240547761 62];
                 [dec (-409478081677743708772589097409370357624424341606752069725341) 57;
                  nlit N 0;
                  nlit N 0;
                  nlit N 0;
                  nlit N 0;
                  nlit N 0;
                  nlit N 0;
                  nlit N 0;
                  dec 210451912023627385609097011999010655788807405225626700040882 60;
                  dec 103427452057230411936482926828825709938667999698324740166559 59;
                  dec 600303645864422487051240448206640574939078092406156945568306 62;
                  dec 855938125099619537578012106002407728915062652616416005816477 60;
                  dec (-25051699854744786049277765772931613038658405042078207596699) 56;
                  dec 194642466652388427766053750328264758595829850895761428240231 56;
                  dec (-304503882102310365506105809086860882786950544097602101685174) 59;
                  dec 49062637952828171352120826529916808384159854227406167157623 56;
                  dec 156647589531270907115484067013597445739595615245966775329993 59;
                  dec (-188197428994011173362217267377035870619215906638453056643641) 56;
                  dec 752592224724847175278837713643303149821620618914245864351135 58;
                  dec 345734356980331067622434344736554689696728644793551014989002 58;
                  dec 321147679440968961435417361847073755169022966748891627882572 59;
                  dec (-460408041738414391307201404237058848867245095265382820823055) 60;
                  dec (-870718339841810522431884137957986245724252047388936572215438) 61;
                  dec (-739351814158303067567016952195521063999185773249132944724553) 59];
                 [dec 343347475853550878921093496257596781120623891072008459930197 59;
                  nlit N 0;
                  nlit N 0;
                  nlit N 0;
                  nlit N 0;
                  nlit N 0;
                  nlit N 0;
                  nlit N 0;
                  dec 249163204855817407538949148805995149459884653585417680098222 62;
                  dec 230138787854593149638399846373742768772087122638142234223658 61;
                  dec (-322155956692977098724476092467120878189463604760620461043308) 62;
                  dec 988442549447664668946335414487885256040819982786014648129297 62;
                  dec 21625279937792250778830784190475735404575922533573270791653 58;
                  dec (-162699864546457421328065640660139489006987552040228852402716) 58;
                  dec (-128534502120524552843583417470935010538029037542654506231743) 60;
                  dec (-898915042666504253089307820833379330486511746063552853023189) 59;
                  dec (-348595363232025333387080201851013650192401767250513765000963) 62;
                  dec 157936194113339807536235187388695574135853387025139738341334 58;
                  dec (-574403330914095065628165482017335820148383663195675408024658) 60;
                  dec (-345602039021393296692722496608124982535237228827655306030152) 60;
                  dec (-662241490206585091731619991383757781133067992707418687587487) 62;
                  dec (-77778812924220416403254645860736430975934720962675911194615) 61;
                  dec (-356084192402274913338827232697437364675240818791706587952939) 62;
                  dec 479282506449930799649797749629840189457296934139359048988332 59;
                  dec 153725464873068577844576387402512082757034273069877432944621 60];
                 [dec 323038520871985442326994734440031535091364975047784630088983 58;
                  nlit N 0;
                  nlit N 0;
                  nlit N 0;
                  nlit N 0;
                  dec (-317987696266205093901912847692712407988609169703103952205634) 62;
                  dec 806397714906192077260821711520379506393543111567419750119748 60;
                  dec 975983126412388979093522850684288851314672048003054550357187 61;
                  dec 778575578158398909027512446452927238999763460594181964958853 60;
                  dec 204890423831599428189499202098105603312029235081420653574829 60;
                  dec (-156261579627468188307070943950527825211462892236424360892806) 59;
                  nlit N 0;
                  dec 163429891882310570648504243973927174708753353504154550405647 58;
                  dec (-154544555293543621230730189631471036399316683669609116705323) 57;
                  dec 156971088703334872692034283417621761466263593582497085955201 59;
                  dec 327685545087248131321429817269900731165522404974733504794135 59;
                  dec (-503489245193653176348040727199783626534081095691632396802451) 61;
                  dec 153321151858041665070593767885914694011224363102594556731397 57;
                  dec 717568186327720495846766484814784143567826308034865369443637 59;
                  dec (-294036748675300481945917659896930989215320594380777597403592) 59;
                  dec (-665845946076803144470749676022628870281920493197256887985612) 61;
                  dec (-462346054990843661229248668562217261176966514016859284197145) 61;
                  dec (-204198733585679401539388228617269778848579774821581777675337) 61;
                  dec (-533523106438735850515953441165998107974045090495791591218714) 58;
                  dec (-135548714715078654978732186705996404017554501614191325114947) 59;
                  dec (-157196275801232751882901735171459249177687219114442583461866) 59];
                 [dec (-166451467486341512872031294403931758764560371130818978459405) 58;
                  nlit N 0;
                  nlit N 0;
                  nlit N 0;
                  nlit N 0;
                  dec 59223278032450330804299000579804652473838956044425713683499 61;
                  dec 470326159963841112217224303205894113455362530746108825010848 60;
                  dec 299688863848679000853981837096192399136831121671781279184194 60;
                  dec (-247656877593994914689992276329810825853958069263947095548189) 60;
                  dec 110895029771437682893999851839061714522445173600678718208625 60;
                  nlit N 0;
                  dec (-491719043846229147070666628704194097678081907210673044988866) 60;
                  dec (-114743154427289496968389492564352536350842454130853175250727) 58;
                  dec 802593166576230272541702485886484400152793366623589989106256 58;
                  dec (-384132303980042847625312526759029103746926841342088219165648) 60;
                  dec 728147667468107583471326950926136115767612581862877764249646 59;
                  dec (-132699384612248379510571708176035274836827341616751884314074) 60;
                  dec (-810799832525730726674679289752255240006070716633632990308935) 58;
                  dec (-125037492835620639521768185656179119962253747492403205797494) 59;
                  dec 259263594969543681023776379504377324994226447359296887778718 59;
                  dec (-301440298346404539830163997260526875264431537275641495291993) 60;
                  dec 22138446078983233745170645157277379169524683905731841430102 59;
                  dec 82757727477189293195598987097469315299627643542980989055121 60;
                  dec 189960662040611520464672450037243263998175161412237156872211 58;
                  dec 269231946409639685623468015128334167460051910348912845121977 60;
                  dec 16267482744706653746298936492962893398812502928418368027902 58;
                  dec 491719043846229147070666628704194097678081907210673044988866 60];
                 [dec 838479812409052664616968791372814085980533139224911131069335 61;
                  nlit N 0;
                  nlit N 0;
                  nlit N 0;
                  nlit N 0;
                  dec (-117949367100973814319755056031295775367961960590736150777613) 61;
                  dec (-247299020568812652339473838743194598325992840353340132697498) 60;
                  dec 978080858367729012259313014081291665503740655476733940756599 61;
                  dec 217590689243420631360008651767860318344168120024782176879989 60;
                  nlit N 0;
                  dec 13758560676332522486565963219678774664744722297508486597544 59;
                  dec 439870229715046685058790092341545026046103890294261359042581 61;
                  nlit N 0;
                  dec (-513700813768193341957004456618630303738757363641964030086972) 60;
                  dec 826355691151315508644211308399153458701423158616168576922372 60;
                  dec 257018139719811832625873882972519939511136556341960074626615 58;
                  nlit N 0;
                  nlit N 0;
                  nlit N 0;
                  nlit N 0;
                  nlit N 0;
                  nlit N 0;
                  nlit N 0;
                  dec (-257018139719811832625873882972519939511136556341960074626615) 58;
                  dec (-826355691151315508644211308399153458701423158616168576922372) 60;
                  dec 513700813768193341957004456618630303738757363641964030086972 60;
                  dec (-439870229715046685058790092341545026046103890294261359042581) 61;
                  dec (-13758560676332522486565963219678774664744722297508486597544) 59];
                 [dec 124380526654094412881516420868799316268491466359671423163289 60;
                  nlit N 0;
                  nlit N 0;
                  nlit N 0;
                  dec 226120282197584301422238662979202901196752320742633143965145 60;
                  dec 137885887618080880607695837016477814530969417491493385363543 61;
                  dec (-6722101339966844497493995074143058569500863415253821828562) 59;
                  nlit N 0;
                  nlit N 0;
                  dec (-856238975085428354755349769879501772112121597411563802855067) 60;
                  dec (-196337522866858908928262850028093813988180440518267404553576) 59;
                  dec (-232332822724119401237246257308921847250108199230419994978218) 60;
                  nlit N 0;
                  dec 430660719086453349461668936876562947772432562053478092626764 59;
                  dec (-292722963249465482659787911202390446687687394950633612630592) 59;
                  dec (-823131666397858944454492334105458707735761966428138676971041) 58;
                  nlit N 0;
                  nlit N 0;
                  nlit N 0;
                  nlit N 0;
                  nlit N 0;
                  nlit N 0;
                  nlit N 0;
                  dec 823131666397858944454492334105458707735761966428138676971041 58;
                  dec 292722963249465482659787911202390446687687394950633612630592 59;
                  dec (-430660719086453349461668936876562947772432562053478092626764) 59;
                  dec 232332822724119401237246257308921847250108199230419994978218 60;
                  dec 196337522866858908928262850028093813988180440518267404553576 59;
                  dec 856238975085428354755349769879501772112121597411563802855067 60];
                 [dec 103484561636679776672993546511910344499744798201971316606663 60;
                  nlit N 0;
                  nlit N 0;
                  dec 122068887306407222589644082868962077139592714834162134741275 60;
                  dec 482574490331246622475134780125688112865919023850168049679402 60;
                  dec (-38140960001560699973088624000562020566411307247841147742197) 60;
                  nlit N 0;
                  dec (-550499525310802324138388507020508177411414311000037561712836) 60;
                  nlit N 0;
                  dec (-711915811585189227887648262043794387578291882406745570495765) 60;
                  dec (-584129605671551340432988730158480872095335329645227595707052) 60;
                  nlit N 0;
                  nlit N 0;
                  dec 211046308125864932128717300046622750300375054278936987850718 59;
                  dec (-837494736739572135525742023001037992695260175335123517729291) 61;
                  dec 510021499072320914075295969043344113107545060862804249161191 59;
                  nlit N 0;
                  nlit N 0;
                  nlit N 0;
                  nlit N 0;
                  nlit N 0;
                  nlit N 0;
                  nlit N 0;
                  dec (-510021499072320914075295969043344113107545060862804249161191) 59;
                  dec 837494736739572135525742023001037992695260175335123517729291 61;
                  dec (-211046308125864932128717300046622750300375054278936987850718) 59;
                  nlit N 0;
                  dec 584129605671551340432988730158480872095335329645227595707052 60;
                  dec 711915811585189227887648262043794387578291882406745570495765 60;
                  dec 550499525310802324138388507020508177411414311000037561712836 60];
                 [dec 193333333333333333333333333333333333333333333333333333333333 60;
                  nlit N 0;
                  dec 22 2;
                  dec (-8) 2;
                  nlit N 0;
                  nlit N 0;
                  dec 109993425580724703919462404865068340845119058295846426463652 60;
                  dec (-254297048076270161384068506997153122141835626976703920846242) 60;
                  nlit N 0;
                  dec 865570777116694254343770343821098281832847401233011859346737 60;
                  dec 3324164491140930831067995527865720183368600929369864071602 57;
                  nlit N 0;
                  nlit N 0;
                  dec (-120102223315977933882352385148661841260301942633996815127277) 58;
                  dec 476601466242493239430442776862061899602963782003580209476163 60;
                  dec (-290243011221036390525802623213654099596251221332470910692353) 58;
                  nlit N 0;
                  nlit N 0;
                  nlit N 0;
                  nlit N 0;
                  nlit N 0;
                  nlit N 0;
                  nlit N 0;
                  dec 290243011221036390525802623213654099596251221332470910692353 58;
                  dec (-476601466242493239430442776862061899602963782003580209476163) 60;
                  dec 120102223315977933882352385148661841260301942633996815127277 58;
                  nlit N 0;
                  dec (-3324164491140930831067995527865720183368600929369864071602) 57;
                  dec (-865570777116694254343770343821098281832847401233011859346737) 60;
                  dec 254297048076270161384068506997153122141835626976703920846242 60;
                  dec (-109993425580724703919462404865068340845119058295846426463652) 60];
                 [dec (-833333333333333333333333333333333333333333333333333333333333) 60;
                  dec 138888888888888888888888888888888888888888888888888888888889 59;
                  nlit N 0;
                  nlit N 0;
                  dec (-75) 2;
                  nlit N 0;
                  dec (-492529543718026304422682049114021320200214681580657784719074) 60;
                  nlit N 0;
                  nlit N 0;
                  nlit N 0;
                  nlit N 0;
                  nlit N 0;
                  nlit N 0;
                  nlit N 0;
                  nlit N 0;
                  nlit N 0;
                  nlit N 0;
                  nlit N 0;
                  nlit N 0;
                  nlit N 0;
                  nlit N 0;
                  nlit N 0;
                  nlit N 0;
                  nlit N 0;
                  nlit N 0;
                  nlit N 0;
                  nlit N 0;
                  nlit N 0;
                  nlit N 0;
                  nlit N 0;
                  dec 492529543718026304422682049114021320200214681580657784719074 60;
                  dec 75 2];
                 [dec 111111111111111111111111111111111111111111111111111111111111 60;
                  nlit N 0;
                  dec (-222222222222222222222222222222222222222222222222222222222222) 60;
                  nlit N 0;
                  nlit N 0;
                  nlit N 0;
                  nlit N 0;
                  nlit N 0;
                  nlit N 0;
                  nlit N 0;
                  nlit N 0;
                  nlit N 0;
                  nlit N 0;
                  nlit N 0;
                  nlit N 0;
                  nlit N 0;
                  nlit N 0;
                  nlit N 0;
                  nlit N 0;
                  nlit N 0;
                  nlit N 0;
                  nlit N 0;
                  nlit N 0;
                  nlit N 0;
                  nlit N 0;
                  nlit N 0;
                  nlit N 0;
                  nlit N 0;
                  nlit N 0;
                  nlit N 0;
                  nlit N 0;
                  nlit N 0;
                  dec 222222222222222222222222222222222222222222222222222222222222 60];
                 [dec 285835140388971558796088842163836414852927537894596466840753 60;
                  dec 291666666666666666666666666666666666666666666666666666666667 60;
                  dec 21875 5;
                  nlit N 0;
                  dec 1640625 7;
                  nlit N 0;
                  dec 218194354945556658327188241581352107093288824322187941141516 60;
                  dec 180392898478697766863635221946775437719620053641849228562435 60;
                  nlit N 0;
                  dec 205713839404845018859120755122929542277570094982808905393991 60;
                  dec 242715791581770239970282927959446515762745971386670541948576 60;
                  dec 246465780813629305833609291181891407799228103869305705137021 60;
                  dec (-344991940790890824979834154601622662060370460614931644223924) 59;
                  dec 228875562160036081760729060738458584294220372552740218459295 60;
                  dec 283290599702151415321527419056733335978436595493855789831434 60;
                  dec 321085125837766640960131490544236787005557320332238705967955 59;
                  dec (-223538777364845699920233756214162507964125230083674032084065) 60;
                  dec (-707121157204419073518727286207487212130091231955206160635271) 60;
                  dec 321123345150287080408174729202856500893260034443022374267639 59;
                  dec 140954348309669766030414474301123175769045945573548986335553 59;
                  dec (-151362053443742613121602276742518111090963026203676055891793) 60;
                  dec 372350574527014276454724080214619984397121028202148298716575 60;
                  dec 252978746406361336722199907762141285915775728129414319261111 60;
                  dec (-321085125837766640960131490544236787005557320332238705967955) 59;
                  dec (-283290599702151415321527419056733335978436595493855789831434) 60;
                  dec (-228875562160036081760729060738458584294220372552740218459295) 60;
                  dec (-246465780813629305833609291181891407799228103869305705137021) 60;
                  dec (-242715791581770239970282927959446515762745971386670541948576) 60;
                  dec (-205713839404845018859120755122929542277570094982808905393991) 60;
                  dec (-180392898478697766863635221946775437719620053641849228562435) 60;
                  dec (-218194354945556658327188241581352107093288824322187941141516) 60;
                  dec (-1640625) 7;
                  dec (-21875) 5;
                  dec (-291666666666666666666666666666666666666666666666666666666667) 60] ];
       bt_b1 := [dec 178571428571428571428571428571428571428571428571428571428571 61;
                 nadd N (dec 5859375 9) (q N 1 1000);
                 dec 1171875 8;
                 nlit N 0;
                 dec 17578125 9;
                 nlit N 0;
                 dec 234375 7;
                 dec 29296875 9;
                 nlit N 0;
                 dec 3515625 8;
                 dec 41015625 9;
                 dec 46875 6;
                 nlit N 0;
                 dec 52734375 9;
                 dec 5859375 8;
                 dec 64453125 9;
                 nlit N 0;
                 dec 10535211357175301969149603288787816222767308308052388404167 59;
                 dec 170561346241752182382120338553874085887555487802790804737501 60;
                 dec 206229397329351940783526485701104894741914286259542454077972 60;
                 dec 206229397329351940783526485701104894741914286259542454077972 60;
                 dec 170561346241752182382120338553874085887555487802790804737501 60;
                 dec 10535211357175301969149603288787816222767308308052388404167 59;
                 dec (-64453125) 9;
                 dec (-5859375) 8;
                 dec (-52734375) 9;
                 dec (-46875) 6;
                 dec (-41015625) 9;
                 dec (-3515625) 8;
                 dec (-29296875) 9;
                 dec (-234375) 7;
                 dec (-17578125) 9;
                 dec (-1171875) 8;
                 nsub N (dec (-5859375) 9) (q N 1 1000);
                 dec 178571428571428571428571428571428571428571428571428571428571 61];
       bt_b2 := [dec 178571428571428571428571428571428571428571428571428571428571 61;
                 dec 5859375 9;
                 dec 1171875 8;
                 nlit N 0;
                 dec 17578125 9;
                 nlit N 0;
                 dec 234375 7;
                 dec 29296875 9;
                 nlit N 0;
                 dec 3515625 8;
                 dec 41015625 9;
                 dec 46875 6;
                 nlit N 0;
                 dec 52734375 9;
                 dec 5859375 8;
                 dec 64453125 9;
                 nlit N 0;
                 dec 10535211357175301969149603288787816222767308308052388404167 59;
                 dec 170561346241752182382120338553874085887555487802790804737501 60;
                 dec 206229397329351940783526485701104894741914286259542454077972 60;
                 dec 206229397329351940783526485701104894741914286259542454077972 60;
                 dec 170561346241752182382120338553874085887555487802790804737501 60;
                 dec 10535211357175301969149603288787816222767308308052388404167 59;
                 dec (-64453125) 9;
                 dec (-5859375) 8;
                 dec (-52734375) 9;
                 dec (-46875) 6;
                 dec (-41015625) 9;
                 dec (-3515625) 8;
                 dec (-29296875) 9;
                 dec (-234375) 7;
                 dec (-17578125) 9;
                 dec (-1171875) 8;
                 dec (-5859375) 9;
                 dec 178571428571428571428571428571428571428571428571428571428571 61];
       bt_c := [nlit N 0;
                dec 111111111111111111111111111111111111111111111111111111111111 60;
                dec 555555555555555555555555555555555555555555555555555555555556 60;
                dec 833333333333333333333333333333333333333333333333333333333333 60;
                dec 333333333333333333333333333333333333333333333333333333333333 60;
                nlit N 1;
                dec 669986979272772921764683785505998513938845229638460353285142 60;
                dec 297068384213818357389584716808219413223332094698915687379168 60;
                dec 727272727272727272727272727272727272727272727272727272727273 60;
                dec 140152799042188765276187487966946717629806463082532936287323 60;
                dec 700701039770150737151099854830749337941407049265546408969222 60;
                dec 363636363636363636363636363636363636363636363636363636363636 60;
                dec 263157894736842105263157894736842105263157894736842105263158 60;
                dec 392172246650270859125196642501208648863714315266128052078483 61;
                dec 812917502928376762983393159278036506189612372617238550774312 60;
                dec 166666666666666666666666666666666666666666666666666666666667 60;
                dec 9 1;
                dec 641299257451966923312771193896682809481096651615083225402924 61;
                dec 20414990928342884892774463430102340502714950524133375162887 59;
                dec 395350391048760565615671369827324372352227297456659450554577 60;
                dec 604649608951239434384328630172675627647772702543340549445423 60;
                dec 79585009071657115107225536569897659497285049475866624837113 59;
                dec 935870074254803307668722880610331719051890334838491677459708 60;
                dec 166666666666666666666666666666666666666666666666666666666667 60;
                dec 812917502928376762983393159278036506189612372617238550774312 60;
                dec 392172246650270859125196642501208648863714315266128052078483 61;
                dec 363636363636363636363636363636363636363636363636363636363636 60;
                dec 700701039770150737151099854830749337941407049265546408969222 60;
                dec 140152799042188765276187487966946717629806463082532936287323 60;
                dec 297068384213818357389584716808219413223332094698915687379168 60;
                dec 669986979272772921764683785505998513938845229638460353285142 60;
                dec 333333333333333333333333333333333333333333333333333333333333 60;
                dec 555555555555555555555555555555555555555555555555555555555556 60;
                dec 111111111111111111111111111111111111111111111111111111111111 60;
                nlit N 1];
       bt_implicit := false; bt_embedded := true |}.
End Feagin.
