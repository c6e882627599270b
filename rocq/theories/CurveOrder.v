(* The generator of the Stark curve has the curve order as its order: the multiples of the
   generator along a signed-digit chain are computed from listed slopes, each checked. *)
From Coq Require Import List ZArith NArith Lia Bool Znumtheory Ring Field.
From Verif Require Import MontModel MontSpec MontPrimes CurveField CurveGroup CurveSpec CurveRoot CurvePoints.
Import ListNotations.
Local Open Scope Z_scope.
Local Notation p := base_prime.

Inductive step := Dbl (l : Z) | Plus (l : Z) | Minus (l : Z).
Definition gx : Z := match generator with At x _ => x | Infinity => 0 end.
Definition gy : Z := match generator with At _ y => y | Infinity => 0 end.
Definition p_lit : Z := Eval vm_compute in base_prime.
(* zero modulo p, for numbers already reduced *)
Definition is0 (z : Z) : bool :=
  let r := red z in (r =? 0) || (r =? p_lit) || (r =? - p_lit) || (r =? 2 * p_lit) || (r =? - (2 * p_lit)).
Definition differ (x y : Z) : bool := negb (is0 (x - y)) && (Z.abs (red (x - y)) <? p_lit).
Definition next (l x1 y1 x2 : Z) : Z * Z :=
  let x3 := red (l * l - x1 - x2) in (x3, red (l * (x1 - x3) - y1)).
Fixpoint run (steps : list step) (k : N) (x y : Z) : option (N * Z * Z) :=
  match steps with
  | [] => Some (k, x, y)
  | Dbl l :: rest =>
      if is0 (l * (y + y) - (3 * (x * x) + 1)) then let '(x3, y3) := next l x y x in run rest (2 * k) x3 y3 else None
  | Plus l :: rest =>
      if differ x gx && is0 (l * (gx - x) - (gy - y)) then let '(x3, y3) := next l x y gx in run rest (k + 1) x3 y3 else None
  | Minus l :: rest =>
      if differ x gx && is0 (l * (gx - x) - (- gy - y)) && negb (k =? 0)%N
      then let '(x3, y3) := next l x y gx in run rest (k - 1) x3 y3 else None
  end.
Definition chain : list step := [
  Dbl 1644912686482877511055657113108787980633360754587022214691994702617817720336;
  Dbl 233961147628029303225005347853160849187591991323010361475277195932441689459;
  Dbl 2287756236311160824205889561030539683360208459516257326571547604233359386763;
  Dbl 2385629891129924979689478554749594545032725973727984907111235586561518409235;
  Dbl 2734470424325684875703248900510549368167791208375054503010524301472748371968;
  Dbl 233816938227548299985141217857955098676526891695443165314979690871536811153;
  Dbl 30591348851461503308151883346097304734702319937823705113099548342982184676;
  Dbl 2009307005980925794255159740760503121408162744357915223812894251311798986449;
  Dbl 2650105119775714272846851231067942963159323319648882541615739405252311422841;
  Dbl 1640479602967889618730116741250838358443897684994867176937918534000163296788;
  Dbl 278264992280395593768305658044772292132842865605125920380516657384334246572;
  Dbl 94927949202816609826064142972416439700462181629995734653836599101830425886;
  Dbl 947046329906274108671628412426705246352405673685639492914921485198393815025;
  Dbl 2843016448071939688606860159630744124077917938032460703700036591261655170068;
  Dbl 2627135975815313926162498540075413028743625069018275322167819510194619871962;
  Dbl 786218649430034939299553931959224594716732144773392363744759305972232820596;
  Dbl 2129227071561067563766575860231085740916648887134910997088327324609093261605;
  Dbl 1727294361510461047308715050489944678258247729227251101506118111137161850126;
  Dbl 1662466450205134983170645030257103790082991570107992072838345921504497993307;
  Dbl 407020917789921029733801142573448265064908660001001414410251913721770507447;
  Dbl 36529398959741616595604398037370394798986482853010632871577172472240136986;
  Dbl 1636001672676108063312521991926116063899000575074459186779824409081063775548;
  Dbl 2678458338512986207173750232167196233834945161526876523483613944855466676975;
  Dbl 3451278158856713707785084697614263643334427538920814477333313689866614503178;
  Dbl 2390537276882476664007061542562473053902014825102045385236686071778465203397;
  Dbl 3331125701798194525124624526283891133955351343021397066615983555269833664618;
  Dbl 2277398497254610520165735127447692795212463860983639680547127777397925168290;
  Dbl 2427432853088660655862015877286307569717822393593823399120374125372903995587;
  Dbl 3308306860596707132210204294610354856955947645037301700289777220890568038933;
  Dbl 3398678828834639728557951603377524915673748138460179748054526347975577109321;
  Dbl 1580758490567545115975566509579085679783517243441971924088950956004951702203;
  Dbl 1224133765446298135226436731553032140486211993343264153917154306604458918478;
  Dbl 3260074828729676144352947732439812451126915130915573322331534542222703683446;
  Dbl 3213840117725909607945860386571713154863288905669109670713384167033060237343;
  Dbl 286547545236136830015625970413689759630614503445647758089376088936388448811;
  Dbl 396971706135303963200227119993466361840950729497395385252604772014430927498;
  Dbl 390332434524173063535960972560663696363216875474867384000611063491553268382;
  Dbl 2828320826737781428255001457814135895248208041663244755700331424892654626433;
  Dbl 2923149920034930218535487580772003615760913508505231306788325507420155717131;
  Dbl 2481196983985757465443426125219498597289924039671829282559765882781079657083;
  Dbl 2186214225097594588169238224819835294269562017606306876893692879743976350567;
  Dbl 126693377117345285628713234300080147310320880309230861828486206423603635476;
  Dbl 1739320389130162817080416057095479941398531149494843989531607726179674292930;
  Dbl 1137407491832621162569742324145771564814136702931293177539864242385136761247;
  Dbl 3043568990284523579900823007460607134314275328597472965508740766966711384483;
  Dbl 1326072372260477391244777823091538425062330875116266478853925794183609969649;
  Dbl 2509275978659408899616951053847496637731305719133668439715406340159082881010;
  Dbl 2212835434141778217989573072841406589300173657257720188335019215008169766938;
  Dbl 134022198884776605144668455557502562742239177130516650531251995836780161728;
  Dbl 700910105487797593479111370672624693597112092132515672072161365179614796130;
  Dbl 1105909488712842999170398341583849018911714832685328380671418648535677695640;
  Dbl 1226432498504918954825540082712750812807157090865583179496782820946070249886;
  Dbl 3251916088873385112221001599048388740954203309952657649516100202516301151764;
  Dbl 2527389887030737488149412964801110354535113686650954057269182813860720564968;
  Dbl 1468792213453206438518007074849879120379023666615327353099622549036175307809;
  Plus 2218759205763434015259238465255001771189045052333240616748839110369360398801;
  Dbl 847522294700256458801626599425411930496584612121921199705601615669862770297;
  Dbl 1971919311799380301993683698412066317913343220414782921006154059561855205753;
  Dbl 2785988248508957030964842346672928665745561988414563237620868786584570733926;
  Dbl 286131150178013490349890231063289035950101421312535900758256643507610762596;
  Plus 1029704491716211936083227099663970239739002050935019971996296058883639593784;
  Dbl 3110656420772516526345879728089307586927617071616308388484273029886143790473;
  Dbl 195694811559613673644685793008205381531890771252719032942030474992907678147;
  Dbl 2833805405264358324259258157261138234531665007347017961784391991504881637388;
  Dbl 2990283970641102203136280211827714510066018932643023703490146993276144532999;
  Dbl 3419362692983148924317607362501827373345958387782125118579383566855841870050;
  Dbl 658291046340382477288448852012779603988907018180250101395475504403067379832;
  Dbl 3385851412958058673363882119459096441201863996832187869295535332557783327445;
  Dbl 1407683869111105871917654157749043734350227266407781463928352103796514839618;
  Dbl 1160542484395036006703051993959541741334683506934131494288429941185610167774;
  Dbl 2485052396285291476390486818054051000256950404138223618352611169810708097850;
  Dbl 2960844426624481358877352910253603327482011056559313149495455188816823046095;
  Dbl 3097984532287882189396393648791963144649213056698069466757767570694450345752;
  Dbl 3275188979976486809903700271342288495565283213214040745461020639820439457965;
  Dbl 1482113865503035844915288447090573030159348963492470449432732957959195933791;
  Dbl 968347327058383168654075424202352253849325454568611717707067486716617954075;
  Dbl 3292599528600809579665400879689702407399376014385697876464578657664059391813;
  Dbl 3595837324126552893418863290241745197925561532208830228059251605009820915666;
  Dbl 3518955019109771136632429379846807754421216547670020579515613884928336269909;
  Dbl 143207190779540391947937425493326695296036001164427042061781156614511264747;
  Dbl 2314453923222170705171785018314920842921558667215359076239686765067711825505;
  Dbl 1171426540823586495410503187826600246281518811964206257606485098995473270830;
  Dbl 824354054235929926196278709989914621067484949110086988974213269337897757241;
  Dbl 411235599607935359771328123250758972665215314137829077599684431621983837750;
  Dbl 2930843400103789415859348459997316072184239364425781950271358285484150790593;
  Dbl 1513860633718007018001752875688228022504961614693635944894591503735036948183;
  Dbl 2489391206035739485802501433664713882467207637216196491227107063700935035233;
  Dbl 1757066589846718961207356822037866692483724648135331041321063039676376022265;
  Dbl 2528852616907135057526552002204537470326000742082843173829304918257354473944;
  Dbl 1424976377443381134945749812359340105416918928506451642876741540722610518421;
  Dbl 790374229898840727353858071878987663781852538274643575637009647318915071455;
  Dbl 1016488226909383856229575491833621303903624888359952558727682047063169512185;
  Dbl 3071341328713828167045300490103488151269985227148294683415360568514527692322;
  Dbl 1178294542566790758260601286520663435656241491030120006723150582207663144861;
  Dbl 572776520361314671510241349043132439166575569723249562712203345301915059802;
  Dbl 1161807342699471616938397485078314090305436253815751515555284951511938525592;
  Dbl 3606923837309337715481480670268166285427566282762296645663854108203523786037;
  Dbl 3562148001956115278920480608348402730459099201020777347370102056319957791070;
  Dbl 311458788091031309768014499402031335035102335386091817865870544506579300564;
  Dbl 3401929601425487124811877494632980163509370724565217805301791407294272506129;
  Dbl 3137457640950411179074189267937220207895958443937481933353811119096358805404;
  Dbl 2533547360438403962638530030390045717355208425743888936785611731596743844166;
  Dbl 3380311962837573966773604367426039282007242697265416919264127130156786757750;
  Dbl 2073248050430095677917314365898440328949508509148734655009041785878025627160;
  Dbl 2759618119131216819500782748880771914521014906610653446502550106732592861432;
  Dbl 2816645568369678096077543995564374448272477830701205350475654397437323515540;
  Dbl 3423111932796284293245546918464808971060527331097048624320716210816611066082;
  Dbl 1370361154306589552058310654549587610895800984747365925631699847966252620319;
  Dbl 673369717128043240814375367026286836190733020722096478791207205439141785468;
  Dbl 2961940243338289409511076036849908556310192473612957408653650902957292314120;
  Dbl 2828338641389138844394583262355180115028783977437833281240583940614122473994;
  Dbl 2378353082140216090402871666719404112520908985848700629257369557764292051498;
  Dbl 2341028565649175462766910418610960304492733106852427256925092422600253735404;
  Dbl 603463653088376768197365745700833296714048888205518820041339408977913448894;
  Dbl 3327978396499405443950767079775842148202311147093801214782254290420747503064;
  Dbl 1078602899217590184228621669588522911357104714443429024324896905416480588388;
  Dbl 2717333337719947972368151851559453877635976047591541185682618571201046489041;
  Dbl 1047433831715557661083492969337404584353801687746105099387617212031195022087;
  Dbl 1870013140621337915222965428195570901735813433503791879320482155095252653346;
  Dbl 2342616884916494907050027522111952237382257785653221389850935325033229359266;
  Dbl 3097360038853333729337198979537256745003800051954009407676404027506857006905;
  Dbl 3331063708914011815244015931553463941218805455135241927534835501645698254007;
  Dbl 1846619117371861624107748729063249010781650618139435997485623558574918375647;
  Dbl 2909834168241230300717371962468963369258484144932694211774167469606542444099;
  Dbl 1463887224930709930645857106015178249271726172236761837241784261632263825886;
  Dbl 3284289901841538673461675773780620828497913926155196094462631700330824506964;
  Dbl 2703509482687980726847525618519196433992973570565580437760051747709254727892;
  Minus 313877156142975124884832183988155753814291972592119681675913684276637641314;
  Dbl 2553002018264416785895917598438254015996105062128419990720842665948754449327;
  Dbl 2433887776976780944320521012233217015175206468097567407183335479690155150709;
  Dbl 1553209591480589921768551688989023123043544933109919561675949673232454312821;
  Minus 90541808879216338447427935319801400015267916041473470825935367183882112689;
  Dbl 3604803025292817373095341820030472783961352091442348835576098623349917588014;
  Dbl 1267454510200385772091126479126550023756941938246301151988427320150009074293;
  Dbl 1014744374126464290619878501037443067941109767666340318711004757043294283877;
  Dbl 3506385359832720461358826477475708078940336431540313852739287124678458268447;
  Minus 346831159700431462851540563796668423450078598415485271840122535609058956688;
  Dbl 3090813171632179313637220054795652217575706102110390055800582289291971168857;
  Dbl 39657493477215483414719126002743067086722863501088467194643746870575967390;
  Dbl 2585254947084786483964558341029383098621291473382477813537507745037778871261;
  Dbl 1757942983096751658229652156001062088012303001130709874534122222467794900788;
  Dbl 2349712758411246455655698008341704080252191600570128877878163040834116667860;
  Dbl 2759460467577394591236563480794078960601875191781327202278755198316975750535;
  Dbl 1373069914385963781133791902727871688750858972445222357932259706699745340450;
  Plus 265856403982997965738260032863583940915452442315200489539688858477976739420;
  Dbl 2494036256298278596360593966807249758401999481116520004489876012107161705046;
  Dbl 205657437775894598278151997173241137034698087603564252068398800808955023565;
  Dbl 3311600428055309029779372339388051234847104544964580471825463626278693484752;
  Dbl 2098176047775022579022489120653455883769163916812956036078248181453077201542;
  Plus 745310191727407312508579682299834401690183446775712718093213896272438110943;
  Dbl 3182273014163050835371802559677884095368531635115654962267260577939652324218;
  Dbl 970172654442568052004561928050783980595166231187149986541201846420400339110;
  Dbl 1736004437270035323212321951838925743200483673151535944888521557935923465454;
  Plus 1589531580043878645009554058330211820296369746836519274116613768372491944668;
  Dbl 992617324899707025358245164223317220339329369638716719437740967258608053015;
  Dbl 1983308349397594495022087675625790487686548120165896304224173961975730632534;
  Plus 2501379108161443004999721684476506574923262559879992596062597522200288608629;
  Dbl 3337210517422101465628470431887593012362317828271394745159330057612362111919;
  Dbl 2620481168015077926540100815595095996926196450079549521825355585479435642335;
  Dbl 431158787194020761637102062698868032648999857784796501360471301655855667874;
  Minus 3548850245273455054418567371806985018048250573161195740264602752700124528458;
  Dbl 2214280648114771530175911577125881844889387322745026674947828881829471053614;
  Dbl 3559008045026970827237834683105403776537061195134780594793115940390321223860;
  Dbl 3371375384316486086717911539969458480836051775842569792183871473062740055925;
  Minus 3048732339966739718751872849418355807390852468792864153692345284595124080469;
  Dbl 2995317960827635292237127423322839054631899842317772391923118573737456720162;
  Dbl 2972959042061578272796157722937253474924099242235331978429572846875839881757;
  Dbl 540041153563680425503656985161148188719308670318778279448422589727930250209;
  Minus 838066870999928296458196921966949789490570381851734829187202093261215116891;
  Dbl 168448168079086861988523661801632269979666793262121293696080151530306005301;
  Dbl 587090666658027886062869347746387480107323831235159160260489078418525012491;
  Plus 2902432435506631487956844797800725075631525813801432069065546621058427654320;
  Dbl 3475238052037814576832656276568591255605569333104273622462285371233359386394;
  Dbl 3053652232880528705671635509731077053055569974790583663409327292616059056460;
  Minus 2305772717485957792762131571285353992183788529072008836035912593518152246735;
  Dbl 1552090091960893937159266332048366581122017402431647223756290626931897232528;
  Dbl 3470074827273103119648939171739771123167420497962785614297824562850391346423;
  Minus 1279456559430637995208241096473260855691854491305824679359434155480757255826;
  Dbl 1268042192599663569250450612704438134497316932328527231797288434301182278502;
  Dbl 1658752689058826401222728952622444907000444288870297985251199763723192052159;
  Dbl 2661908311406072779707825843761110970623964109142585933249905060358011451554;
  Minus 617938613222408319320920907690847032079953477205280960257887744283572182763;
  Dbl 2820037527194486282366979805487547465560275260222874020936850767091627141184;
  Dbl 2111697829541489736030194661546144357782773627955898734012988228859569486928;
  Plus 3372632310991352024025807844730171367059522163524832413754471800113829006147;
  Dbl 1756793061854844787273595708838760282383620382951721053634294121562863813541;
  Dbl 1744230188444157335587144690968920255039111596110333412917186701876792129175;
  Dbl 1782375686136684069259306206994233228099133873742685737293365398847297540757;
  Dbl 143510251666746108663306997019445988262175070796236894566474266421766172362;
  Dbl 1782908181825812637706451149039950696368907671667570663015029001141703426507;
  Minus 2270496140115879115252494463382399200666793590934680182040921570629200150466;
  Dbl 2820094579283878118075649405573258000807377767145087442954975725288051754938;
  Dbl 2650621226239386910712738967847690208999501248131964262672210458127533588046;
  Minus 3289520228006333298376361956765340148489695378522306673708509524005412387769;
  Dbl 537870947488575798188245702454883660147321472090449835071967835836069687757;
  Dbl 1889571476120761501869339056652413538280356212871457819836301725371562495870;
  Dbl 3026393207257087959545582878864623764445498141584276273783473737449342721668;
  Plus 2364377087232099127799670473711411983285181580034445323682314595750005774261;
  Dbl 914430979967087514113909485858130429744784753203306397770914048731211820263;
  Dbl 1215965872014244757991953196547462419413837751166870725670234954839042474267;
  Dbl 2432690774001616754006901391657557412272830223014665485226791470952191193872;
  Plus 3431421888953353955134356407525364806094999366711798931396084456762543674568;
  Dbl 2673525165629400418735388504751195326854684695419127755693465759915324037969;
  Dbl 1064160442238304806491127752812399360267326390175693164737865706488383826752;
  Minus 3096567855321897526441312399561717222268747089921468851073124657187649518802;
  Dbl 358843793928456757438727828806588125948458165626567144743685370956426272635;
  Dbl 1515379960163544993089398146191092285472943296908312735186912401325831748581;
  Dbl 2402289727934302806196569739747456404683751954365887288703356496775229658004;
  Plus 3127317257102122268594703202029590066694647649650659612040449717265901479967;
  Dbl 3184869302195922699247338077859934770824741185446932597235139382233144711166;
  Dbl 2103978507147143620119011265569642653184011033598601209738762422963448639218;
  Dbl 2764772147216895655391692477328795909652120027888029003117039172880624622321;
  Dbl 2932459077495182098024116087122991169377880706699093778158866154634434582564;
  Plus 2012340655166408831437059682158469898915351954227572783454451675667015156306;
  Dbl 1862162193958553912049030879037258811654000939436784743497713019608983260110;
  Dbl 2476813749072345352943102892648047505937228151176583161089876183494840765052;
  Dbl 1100063463644371054749501482674294505067318717679537880999453158342782039129;
  Dbl 1593724247573366200659421836542278128994153194497177099691921451950556756697;
  Minus 1880424779701394229964284178068156198446059883746339284021159197888925961506;
  Dbl 3311139204160263849205362609848886942662824815040034640290361261570301036222;
  Dbl 65683044790746443865581400804288012684713341097947344861476313612891476060;
  Plus 939868203888987362253491049582254541662660908768979279933375380076432962441;
  Dbl 1538986568178699648443887912023705566813427609686177121236438079179275405056;
  Dbl 621527734239538033139277342966270626520930170196833528970141865841945620124;
  Minus 155067610200276991738715970454125145511687815246371845749861177676742455152;
  Dbl 1627458719812613117652295961215393951429737026814397096000264362774211011405;
  Dbl 2952864628881691240882450754145649835352962416301340829018172578507306903370;
  Plus 888772463142589801098776174100542081424241549193544915208681172165259453211;
  Dbl 2603468335009064031531514563125711522013367083589744028218281195688457777762;
  Dbl 2283854743371830307727759929143659361478833473276807686305572893512724644169;
  Minus 2658648538389042811129343097629840318978545783344071822265955109583641703646;
  Dbl 2239302483710538757794815035148294734871351562508445059917861786887861917015;
  Dbl 2452857094456715144250147565401525670536311494922629874795957151580027932623;
  Plus 2601988106187817502408324291811476232339596145196635615275720524037382212038;
  Dbl 1894395055038649817953297922534955001217611283171668825801161068012730628043;
  Dbl 2355590005286786861164934853557686647183724277603668070953724211998471670889;
  Plus 1435483312627867012048699544877362734018208486224939124986244158585947202612;
  Dbl 3579649984212339242394524596210549457409091455185579045898121129560587593275;
  Dbl 2155231418464097918064392791736797496034361613282511143396871164648433443205;
  Dbl 2018185919482689579167237703472202331528811412223417241042761058375770819943;
  Dbl 687677851643226371526844985082033783593042155589901970358266247517973842966;
  Plus 2869571842872189504106815419465364937337849633559464049404179696822516731390;
  Dbl 2890276331089923666229740235843286808831333483220436291475761353146670507830;
  Dbl 663292355398618491724529614982668625984054100963500665852999586634260477369;
  Dbl 1529689842363079606586510684463109622040040136581408308702168929329535013330;
  Plus 598346046304850957006051356662995046045745151402147547750322861954880719312;
  Dbl 719394374313181778634513948118571820748080572603364360405503881228424403195;
  Dbl 959737570075187685234138646269917518850906066953692942580254254285520695649;
  Dbl 2475461808915420942761142763530170111192247106181771653818288900631919581715;
  Dbl 2298001272434337866658784681663945671188325883626831664014776305808053335;
  Dbl 2612228098768481234238981245357964411336245148357042471705399317910873099559;
  Plus 2727227883055971829681019078476210009744588411270042778549603666727173283426;
  Dbl 1991049319751962606213207013467411525961944105986070830579895051830611335041;
  Dbl 2281761877873695476880923158900981276190402354586470084488964212248753001066;
  Dbl 696424831717183579550359676958209146872983985955152425066759358642526665787;
  Minus 3604161307734098764390032440173866047772150544257492528236814624410645837206;
  Dbl 1075853030470554303714681439756747121883576699982750487747610727216038346006;
  Dbl 2680454153478113535352725457633223813274122619530393566827871194330714481364;
  Minus 2198568101480022457202765384833582481095397545182697929013701519478887791616;
  Dbl 2444661364464137817417562391842260823695088725446935073677071242893775438568;
  Dbl 2392342162232348176985349709407915168856674866615561599742321553631439123009;
  Dbl 3072194535256658165991212229866909136374164680935034518134134022183914568737;
  Minus 780143295916754609990116883279476278810276920507421335122618085208663376114;
  Dbl 2397852339385305530925856107875794603361112668392844806472970552741885004076;
  Dbl 1496035838295441248146650509446504955417198293319226424445807129916562373802;
  Dbl 332786119327872683315464361430527675593401265887771972176852975533204245812;
  Minus 1833080903508350000543607001141212994009007971967321150578536803853568599621;
  Dbl 2963136695267322330262555386793685123337062085144249448928523685695908307736;
  Dbl 1120657922125177025112684016328826057661886577801710829187349187778158794622;
  Dbl 2675487026175965539905738034591128993970571607937512788536955509063235020344;
  Plus 3345376894572994386928976884514831041727984852028852268429420636169407610146;
  Dbl 1888989122965950530553585747259423161672376362978359947983287645756172267328;
  Dbl 3419313783054864725191147029537748693684267458246948170294523463879219446370;
  Minus 1992739164304818289197771367956999295929379153944950425066511489136611758741;
  Dbl 1798515663937698063825137160871058938154690549339771575982608141823830221418;
  Dbl 530896914358606794375789901994802770006192801801128829057489793514869603473;
  Dbl 3440277457777135043086732707417178638994823119936392903138508148666965930019;
  Plus 3448749960802032710734558876685446567076055995645642642223444429208371645640;
  Dbl 762148709680574646489078262142890066746442067339070457359564652588611398284;
  Dbl 2074270123614790824331045369895349436040875821902142104759539390681110524981;
  Plus 2053770595888044782747367804308533874647282242158330918009639532414297608036;
  Dbl 489197839217037672886567553548719527203989012163982042726615706399349511034;
  Dbl 3083377624936740193073328287837999356153314930378793006414438898401663721341;
  Minus 47853228691525384247339100979288013620588833113029250658862362183127484965;
  Dbl 2189505357053453949286877186416819260084453891951198180333475679070057779054;
  Dbl 3481299623800704828254491643234854576547159080813032618878921760132590724574;
  Plus 3417708281164108347847295372528366656779751698013408652560499888940755256829;
  Dbl 2443360530645060652518241989011851501172709832549257752098389644672373931513;
  Dbl 141837640813517401116493608517506526677497643687837874471534339567996161628;
  Plus 2990793833909634025613347407104414479882304101676720252589700698758591408797;
  Dbl 3336925140069173367553123903182911343579426795713791621455065356681297267590;
  Dbl 3425815341803442843971691283430774979927665455886208021286858990909853751004;
  Minus 1759602959946832168287091890432881128020448460213209767397998635336628133402;
  Dbl 3384784726988124014826232098738775962090850537355065783172226644050750395862;
  Dbl 3471493358030583172811957965298724575614544704583419945220810967054959454316;
  Dbl 2685445970158960231790667536832249694739267661970599897220915206557151630428;
  Dbl 845147956382828487065576609702978307326377554842282040957934933592272738036].
Definition chain_ok (s : list step) : bool :=
  match run s 1 gx gy with
  | Some (k, x, y) => (k =? Z.to_N curve_order + 1)%N && is0 (x - gx) && is0 (y - gy)
  | None => false
  end.
Lemma chain_true : chain_ok chain = true.
Proof. vm_cast_no_check (eq_refl true). Qed.

Lemma p_lit_eq : p_lit = p.
Proof. vm_compute. reflexivity. Qed.
#[local] Opaque base_prime p_lit red curve_order.
Add Field elt_field3 : F_field.
Lemma el_0p : forall k, el (k * p) = el 0.
Proof. intros k. exact (el_shift 0 k). Qed.
Lemma is0_el : forall z, is0 z = true -> el z = el 0.
Proof.
  intros z H. rewrite <- (el_red z). unfold is0 in H. cbv zeta in H. rewrite p_lit_eq in H.
  generalize dependent (red z). intros r H. rewrite !orb_true_iff, !Z.eqb_eq in H.
  destruct H as [[[[->| ->]| ->]| ->]| ->]; [reflexivity| | | |].
  - rewrite <- (el_0p 1). f_equal; lia.
  - rewrite <- (el_0p (-1)). f_equal; lia.
  - apply el_0p.
  - rewrite <- (el_0p (-2)). f_equal; lia.
Qed.
Lemma differ_el : forall x y, differ x y = true -> el x <> el y.
Proof.
  intros x y H E. unfold differ in H. apply andb_true_iff in H. destruct H as [H1 H2].
  assert (Z0 : el (red (x - y)) = el 0) by (rewrite el_red, el_sub, E; ring).
  apply negb_true_iff in H1. unfold is0 in H1. cbv zeta in H1. apply Z.ltb_lt in H2. rewrite p_lit_eq in H1, H2.
  generalize dependent (red (x - y)). intros r H1 H2 Z0. rewrite !orb_false_iff, !Z.eqb_neq in H1.
  apply el_eq in Z0. pose proof p_big as PB. rewrite Z.mod_0_l in Z0 by lia.
  apply Z.mod_divide in Z0; [|lia]. destruct Z0 as [q ->].
  destruct H1 as [[[[H0 _] _] _] _]. rewrite Z.abs_mul, (Z.abs_eq p) in H2 by lia.
  assert (q <> 0) by (intros ->; apply H0; reflexivity). assert (H1 : 1 <= Z.abs q) by lia. clear - H2 H1 PB. nia.
Qed.
Lemma next_el : forall l x1 y1 x2, let '(x3, y3) := next l x1 y1 x2 in PT (el x3) (el y3) = gthird (el l) (el x1) (el y1) (el x2).
Proof.
  intros l x1 y1 x2. unfold next. unfold gthird, third. rewrite !el_red, !el_sub, !el_mul, !el_sub, el_red, !el_sub, !el_mul. reflexivity.
Qed.
Definition G : pt := PT (el gx) (el gy).
Lemma G_on : on G.
Proof. unfold G. apply on_cubic. vm_cast_no_check (eq_refl ((gy * gy) mod p)). Qed.
#[local] Opaque gx gy.
Lemma sub_eq0 : forall u v, el (u - v) = el 0 -> el u = el v.
Proof. intros u v H. rewrite el_sub in H. apply fsub_z, H. Qed.
Lemma run_ok : forall s k x y k' x' y', run s k x y = Some (k', x', y') ->
  gmul k G = PT (el x) (el y) -> gmul k' G = PT (el x') (el y').
Proof.
  induction s as [|[l|l|l] s IH]; intros k x y k' x' y' R K; cbn [run] in R.
  - injection R as -> -> ->. exact K.
  - destruct (is0 _) eqn:Z0; [|discriminate]. pose proof (next_el l x y x) as NX. destruct (next l x y x) as [x3 y3].
    apply (IH _ _ _ _ _ _ R). replace (2 * k)%N with (k + k)%N by lia. rewrite gmul_add, K by exact G_on. rewrite NX.
    assert (O : on (PT (el x) (el y))) by (rewrite <- K; apply gmul_on, G_on).
    apply gadd_tangent; [exact O|]. apply is0_el, sub_eq0 in Z0. rewrite <- !el_mul, <- !el_add, <- !el_mul, Z0. f_equal. ring.
  - destruct (differ x gx) eqn:D; [|discriminate]. destruct (is0 _) eqn:Z0; [|discriminate]. cbn [andb] in R.
    pose proof (next_el l x y gx) as NX. destruct (next l x y gx) as [x3 y3].
    apply (IH _ _ _ _ _ _ R). rewrite gmul_add, K, gmul_1, NX by exact G_on. unfold G.
    apply gadd_chord; [apply differ_el, D|]. apply is0_el, sub_eq0 in Z0. rewrite <- !el_sub, <- el_mul. exact Z0.
  - destruct (differ x gx) eqn:D; [|discriminate]. destruct (is0 _) eqn:Z0; [|discriminate]. destruct (N.eqb_spec k 0) as [|NZ]; [discriminate|].
    cbn [andb negb] in R. pose proof (next_el l x y gx) as NX. destruct (next l x y gx) as [x3 y3].
    apply (IH _ _ _ _ _ _ R). pose proof (gmul_on (k - 1) G G_on) as O1.
    assert (E : gadd G (gmul (k - 1) G) = PT (el x) (el y)).
    { rewrite <- K. rewrite <- gmul_succ. f_equal. lia. }
    rewrite <- (gcancel G (gmul (k - 1) G) G_on O1), E, NX.
    assert (O : on (PT (el x) (el y))) by (rewrite <- K; apply gmul_on, G_on).
    rewrite gadd_comm by (exact O || apply gopp_on, G_on). unfold G, gopp, popp.
    apply gadd_chord; [apply differ_el, D|]. apply is0_el, sub_eq0 in Z0.
    rewrite <- el_opp, <- !el_sub, <- el_mul. exact Z0.
Qed.
Definition order : N := Z.to_N curve_order.
Lemma chain_order : forall s, chain_ok s = true -> gmul order G = Oh.
Proof.
  intros s C. unfold chain_ok in C. destruct (run s 1 gx gy) as [[[k x] y]|] eqn:R; [|discriminate].
  apply andb_true_iff in C. destruct C as [C C3]. apply andb_true_iff in C. destruct C as [C1 C2].
  apply N.eqb_eq in C1. subst k. apply is0_el, sub_eq0 in C2, C3.
  pose proof (run_ok _ _ _ _ _ _ _ R (gmul_1 G)) as E. rewrite C2, C3 in E. fold G in E. change (Z.to_N curve_order) with order in E.
  rewrite N.add_1_r, gmul_succ in E. pose proof (gmul_on order G G_on) as O.
  rewrite <- (gcancel G (gmul order G) G_on O), E, gadd_comm by (exact G_on || apply gopp_on, G_on). apply gadd_opp.
Qed.
Lemma order_G : gmul order G = Oh.
Proof. exact (chain_order chain chain_true). Qed.
