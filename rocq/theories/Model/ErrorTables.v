(** * Constant tables of src/error.rs, copied from the source by script *)

From Coq Require Import ZArith List.
From Verif.Model Require Import Base.
Import ListNotations.

(** src/error.rs:283-312 [COF], 28 entries, digits as in the source *)
Definition COF : list dec := [
  -1.3026537197817094;
  6.419_697_923_564_902e-1;
  1.9476473204185836e-2;
  -9.561_514_786_808_63e-3;
  -9.46595344482036e-4;
  3.66839497852761e-4;
  4.2523324806907e-5;
  -2.0278578112534e-5;
  -1.624290004647e-6;
  1.303655835580e-6;
  1.5626441722e-8;
  -8.5238095915e-8;
  6.529054439e-9;
  5.059343495e-9;
  -9.91364156e-10;
  -2.27365122e-10;
  9.6467911e-11;
  2.394038e-12;
  -6.886027e-12;
  8.94487e-13;
  3.13092e-13;
  -1.12708e-13;
  3.81e-16;
  7.106e-15;
  -1.523e-15;
  -9.4e-17;
  1.21e-16;
  -2.8e-17
]%dec.

(** src/error.rs:362-1259 [CHEBYSHEV_COEFFS_0], 896 entries, digits as in the source *)
Definition CHEBYSHEV_COEFFS_0 : list dec := [
  0.8723338250030206; -0.0008872968103933578;
  0.8705621184027384; -0.0008844118042796015;
  0.8687961697483176; -0.0008815388545539402;
  0.8670359549867388; -0.0008786779015153745;
  0.8652814501840489; -0.0008758288857988123;
  0.8635326315246904; -0.0008729917483729752;
  0.8617894753108368; -0.0008701664305383194;
  0.8600519579617303; -0.0008673528739249706;
  0.8583200560130249; -0.0008645510204906727;
  0.8565937461161331; -0.0008617608125187508;
  0.8548730050375775; -0.0008589821926160877;
  0.8531578096583441; -0.0008562151037111138;
  0.851448136973243; -0.0008534594890518116;
  0.8497439640902698; -0.0008507152922037327;
  0.8480452682299734; -0.0008479824570480282;
  0.8463520267248265; -0.0008452609277794933;
  0.8446642170185998; -0.0008425506489046247;
  0.8429818166657415; -0.0008398515652396899;
  0.8413048033307585; -0.000837163621908812;
  0.8396331547876036; -0.0008344867643420651;
  0.8379668489190648; -0.0008318209382735833;
  0.8363058637161596; -0.0008291660897396833;
  0.8346501772775319; -0.0008265221650769985;
  0.8329997678088539; -0.0008238891109206256;
  0.8313546136222306; -0.000821266874202285;
  0.8297146931356083; -0.0008186554021484919;
  0.828079984872187; -0.000816054642278741;
  0.8264504674598366; -0.0008134645424037024;
  0.8248261196305154; -0.0008108850506234304;
  0.8232069202196942; -0.0008083161153255836;
  0.8215928481657822; -0.0008057576851836578;
  0.8199838825095569; -0.0008032097091552296;
  0.8183800023935985; -0.000800672136480213;
  0.8167811870617263; -0.0007981449166791264;
  0.8151874158584393; -0.0007956279995513723;
  0.8135986682283604; -0.0007931213351735281;
  0.8120149237156833; -0.000790624873897648;
  0.8104361619636239; -0.0007881385663495765;
  0.8088623627138738; -0.0007856623634272733;
  0.807293505806058; -0.0007831962162991493;
  0.8057295711771956; -0.0007807400764024134;
  0.8041705388611637; -0.0007782938954414307;
  0.8026163889881652; -0.0007758576253860916;
  0.8010671017841989; -0.0007734312184701913;
  0.7995226575705333; -0.0007710146271898207;
  0.7979830367631838; -0.0007686078043017676;
  0.7964482198723931; -0.000766210702821929;
  0.7949181875021141; -0.0007638232760237331;
  0.7933929203494965; -0.0007614454774365724;
  0.7918723992043768; -0.0007590772608442476;
  0.7903566049487708; -0.0007567185802834204;
  0.7888455185563691; -0.0007543693900420783;
  0.7873391210920364; -0.0007520296446580084;
  0.7858373937113136; -0.0007496992989172816;
  0.784340317659922; -0.0007473783078527468;
  0.7828478742732718; -0.0007450666267425354;
  0.781360044975973; -0.0007427642111085756;
  0.7798768112813492; -0.0007404710167151157;
  0.7783981547909542; -0.0007381869995672581;
  0.7769240571940921; -0.0007359121159095033;
  0.7754545002673398; -0.0007336463222243019;
  0.7739894658740724; -0.000731389575230618;
  0.7725289359639921; -0.0007291418318825005;
  0.7710728925726587; -0.0007269030493676652;
  0.7688972006211272; -0.0014471231681543412;
  0.7660118146744753; -0.0014382745289161297;
  0.7631440557264844; -0.0014294960583864501;
  0.7602937841039766; -0.0014207870935242794;
  0.7574608614526956; -0.0014121469784349968;
  0.754645150723099; -0.001403575064284824;
  0.7518465161563217; -0.0013950707092163837;
  0.7490648232703065; -0.0013866332782653608;
  0.7462999388461005; -0.0013782621432782487;
  0.7435517309143146; -0.0013699566828311689;
  0.7408200687417447; -0.001361716282149744;
  0.738104822818152; -0.001353540333030016;
  0.7354058648432005; -0.0013454282337603876;
  0.7327230677135489; -0.0013373793890445796;
  0.7300563055100968; -0.0013293932099255829;
  0.7274054534853814; -0.0013214691137105985;
  0.7247703880511228; -0.0013136065238969455;
  0.7221509867659175; -0.0013058048700989276;
  0.7195471283230767; -0.0012980635879756436;
  0.7169586925386079; -0.0012903821191597266;
  0.7143855603393386; -0.001282759911187004;
  0.7118276137511794; -0.0012751964174270592;
  0.7092847358875253; -0.001267691097014689;
  0.7067568109377925; -0.0012602434147822382;
  0.7042437241560913; -0.0012528528411928027;
  0.7017453618500296; -0.0012455188522742912;
  0.6992616113696493; -0.0012382409295543266;
  0.6967923610964906; -0.0012310185599959825;
  0.6943375004327855; -0.0012238512359343406;
  0.6918969197907757; -0.001216738455013856;
  0.6894705105821566; -0.001209679720126523;
  0.6870581652076425; -0.0012026745393508263;
  0.6846597770466549; -0.0011957224258914703;
  0.6822752404471294; -0.0011888228980198744;
  0.6799044507154407; -0.001181975479015422;
  0.6775473041064454; -0.0011751796971074568;
  0.6752036978136393; -0.0011684350854180123;
  0.6728735299594285; -0.0011617411819052675;
  0.6705566995855131; -0.0011550975293077165;
  0.6682531066433821; -0.0011485036750890434;
  0.6659626519849173; -0.0011419591713836936;
  0.6636852373531056; -0.00113546357494313;
  0.6614207653728582; -0.0011290164470827667;
  0.6591691395419355; -0.0011226173536295705;
  0.6569302642219753; -0.0011162658648703199;
  0.6547040446296247; -0.001109961555500514;
  0.6524903868277735; -0.0011037040045739231;
  0.6502891977168868; -0.0010974927954527699;
  0.6481003850264381; -0.0010913275157585346;
  0.6459238573064391; -0.001085207757323376;
  0.6437595239190667; -0.0010791331161421579;
  0.6416072950303848; -0.0010731031923250757;
  0.6394670816021605; -0.0010671175900508712;
  0.6373387953837737; -0.0010611759175206327;
  0.6352223489042175; -0.0010552777869121677;
  0.6331176554641905; -0.001049422814334943;
  0.631024629128278; -0.0010436106197855852;
  0.6289431847172209; -0.0010378408271039317;
  0.6268732378002742; -0.0010321130639296269;
  0.624814704687649; -0.0010264269616592553;
  0.6227675024230419; -0.001020782155404005;
  0.6207315487762476; -0.0010151782839478536;
  0.618706762235854; -0.0010096149897062695;
  0.6166930620020209; -0.0010040919186854239;
  0.6136931234582421; -0.0019917639301181753;
  0.6097312657440812; -0.001970145800041228;
  0.6058123339966982; -0.0019488370656330794;
  0.6019357147752371; -0.0019278323942129086;
  0.5981008051981913; -0.00190712655871806;
  0.5943070127345129; -0.001886714435367685;
  0.5905537549993384; -0.001866591001383023;
  0.5868404595542178; -0.0018467513327628312;
  0.58316656371174; -0.0018271906021125274;
  0.5795315143444458; -0.0018079040765256369;
  0.575934767697928; -0.0017888871155161844;
  0.5723757892080168; -0.001770135169000704;
  0.5688540533219519; -0.0017516437753285813;
  0.5653690433234477; -0.0017334085593594727;
  0.5619202511615565; -0.0017154252305865854;
  0.558507177283241; -0.0016976895813046353;
  0.5551293304695669; -0.0016801974848213296;
  0.5517862276754303; -0.0016629448937112569;
  0.5484773938727351; -0.0016459278381110935;
  0.5452023618969403; -0.0016291424240550715;
  0.5419606722968962; -0.0016125848318496749;
  0.5387518731878941; -0.0015962513144865639;
  0.5355755201078508; -0.0015801381960927556;
  0.5324311758765584; -0.0015642418704171104;
  0.529318410457924; -0.001548558799352205;
  0.5262368008251315; -0.001533085511490694;
  0.5231859308286574; -0.00151781860071529;
  0.5201653910670729; -0.0015027547248215108;
  0.5171747787605693; -0.0014878906041723718;
  0.514213697627142; -0.0014732230203842178;
  0.5112817577613726; -0.0014587488150429133;
  0.5083785755157492; -0.0014444648884496313;
  0.5055037733844655; -0.0014303681983955003;
  0.5026569798896433; -0.0014164557589643905;
  0.49983782946992084; -0.0014027246393631344;
  0.4970459623713544; -0.0013891719627785058;
  0.49428102454057965; -0.0013757949052602871;
  0.49154266752018144; -0.0013625906946297841;
  0.48883054834622147; -0.001349556609413153;
  0.48614432944787483; -0.0013366899777989354;
  0.4834836785491282; -0.001323988176619196;
  0.48084826857249235; -0.00131144863035369;
  0.4782377775446839; -0.001299068810156492;
  0.47565188850423157; -0.0012868462329045354;
  0.47309028941096426; -0.001274778460267528;
  0.47055267305733806; -0.0012628630977987235;
  0.46803873698156134; -0.001251097794046037;
  0.465548183382478; -0.0012394802396830144;
  0.4630807190361686; -0.0012280081666591696;
  0.46063605521423273; -0.0012166793473692252;
  0.4582139076037137; -0.0012054915938407948;
  0.45581399622863017; -0.0011944427569400644;
  0.4534360453730785; -0.001183530725595041;
  0.4510797835058718; -0.0011727534260359415;
  0.4487449432066807; -0.0011621088210523156;
  0.44643126109364445; -0.0011515949092664973;
  0.44413847775241816; -0.0011412097244229986;
  0.44186633766662636; -0.0011309513346934629;
  0.43961458914969087; -0.0011208178419968061;
  0.43738298427800376; -0.0011108073813341879;
  0.43517127882541606; -0.0011009181201384584;
  0.43297923219901263; -0.001091148257637739;
  0.43080660737614707; -0.0010814960242328002;
  0.4286531708427073; -0.0010719596808879163;
  0.4254584917437983; -0.0021157374583938987;
  0.4212639595955285; -0.002078941404675118;
  0.41714214783100806; -0.0020430128213609292;
  0.41309134673981085; -0.002007926621611125;
  0.4091098959349555; -0.001973658563357409;
  0.405196182695681; -0.0019401852172135183;
  0.4013486403730453; -0.0019074839357316178;
  0.3975657468557166; -0.0018755328239435211;
  0.393846023093446; -0.0018443107111283114;
  0.3901880316758252; -0.0018137971237507922;
  0.38659037546404074; -0.001783972259517911;
  0.3830516962734394; -0.0017548169625028634;
  0.3795706736048178; -0.0017263126992890234;
  0.37614602342244285; -0.0016984415360881537;
  0.37277649697689735; -0.001671186116789541;
  0.3694608796709308; -0.00164452964189878;
  0.3661979899665766; -0.0016184558483268998;
  0.36298667833187154; -0.0015929489899923995;
  0.35982582622558806; -0.001567993819200534;
  0.35671434511845934; -0.0015435755687658805;
  0.3536511755494432; -0.0015196799348458126;
  0.3506352862156338; -0.0014962930604540308;
  0.3476656730944907; -0.0014734015196247452;
  0.34474135859711263; -0.0014509923021994737;
  0.34186139075133753; -0.0014290527992097243;
  0.3390248424135021; -0.0014075707888300685;
  0.33623081050774606; -0.0013865344228772899;
  0.33347841529179056; -0.0013659322138324125;
  0.3307667996481688; -0.0013457530223634731;
  0.3280951283999277; -0.001325986045327919;
  0.32546258764986247; -0.001306620804234472;
  0.3228683841423833; -0.0012876471341452145;
  0.3203117446471539; -0.0012690551729995243;
  0.31779191536367457; -0.001250835351342317;
  0.31530816134601847; -0.0012329783824398387;
  0.31285976594696235; -0.0012154752527670032;
  0.31044603028078366; -0.0011983172128509868;
  0.3080662727040266; -0.00118149576845647;
  0.30571982831356764; -0.0011650026720985637;
  0.3034060484613388; -0.0011488299148700773;
  0.3011243002850924; -0.001132969718570372;
  0.2988739662546173; -0.001117414528123602;
  0.2966544437328384; -0.0011021570042746857;
  0.2944651445512561; -0.0010871900165518474;
  0.29230549459920335; -0.0010725066364850675;
  0.29017493342641765; -0.0010581001310702312;
  0.288072913858448; -0.0010439639564692122;
  0.28599890162443325; -0.0010300917519365453;
  0.28395237499680787; -0.001016477333963749;
  0.28193282444250867; -0.0010031146906327303;
  0.2799397522852729; -0.000989997976170081;
  0.27797267237863266; -0.0009771215056944154;
  0.2760311097892286; -0.0009644797501492351;
  0.2741146004900779; -0.0009520673314141228;
  0.2722226910634476; -0.0009398790175873681;
  0.2703549384129966; -0.0009279097184334232;
  0.2685109094848635; -0.0009161544809888546;
  0.26669018099738845; -0.0009046084853207283;
  0.2648923391791716; -0.0008932670404316115;
  0.26311697951517876; -0.0008821255803056208;
  0.26136370650061896; -0.0008711796600901702;
  0.25963213340232677; -0.0008604249524082978;
  0.25792188202739363; -0.0008498572437966574;
  0.2562325824988013; -0.0008394724312644615;
  0.25373712868913567; -0.0016484588604286602;
  0.25047987737525357; -0.001609018267040129;
  0.24730017175927557; -0.001570903565953491;
  0.24419541665610442; -0.0015340586418370623;
  0.24116312626296485; -0.0014984301997217854;
  0.23820091868288185; -0.0014639676026053825;
  0.2353065107623657; -0.0014306227195131048;
  0.2324777132231403; -0.0013983497832750673;
  0.2297124260691743; -0.0013671052573369753;
  0.22700863425158718; -0.001336847710973185;
  0.2243644035752167; -0.001307537702318902;
  0.2217778768317557; -0.0012791376686822709;
  0.21924727014540366; -0.0012516118236375203;
  0.2167708695179387; -0.0012249260604374527;
  0.2143470275610041; -0.0011990478613177519;
  0.2119741604042271; -0.0011739462122970184;
  0.20965074476854986; -0.001149591523105406;
  0.20737531519486083; -0.0011259555519014084;
  0.20514646141866902; -0.001103011334460944;
  0.20296282588217426; -0.0010807331175455568;
  0.20082310137565043; -0.00105909629617748;
  0.19872602880058388; -0.0010380773545686306;
  0.19667039504749745; -0.0010176538104684288;
  0.19465503098184325; -0.0009978041627118322;
  0.19267880953177013; -0.0009785078417642024;
  0.1907406438719633; -0.000959745163073716;
  0.18883948569811942; -0.0009414972830550708;
  0.18697432358696095; -0.0009237461575403052;
  0.18514418143701; -0.0009064745025437266;
  0.18334811698563785; -0.0008896657571983016;
  0.18158522039818215; -0.0008733040487304566;
  0.17985461292517987; -0.0008573741593491431;
  0.17815544562400545; -0.0008418614949332743;
  0.17648689814142632; -0.0008267520554093113;
  0.1748481775537978; -0.000812032406717886;
  0.17323851726181544; -0.0007976896542749651;
  0.17165717593692398; -0.0007837114178392004;
  0.1701034365166553; -0.0007700858077028206;
  0.1685766052463256; -0.0007568014021287363;
  0.16707601076467302; -0.0007438472259614682;
  0.16560100323115626; -0.0007312127303441126;
  0.16415095349276673; -0.0007188877734778415;
  0.1627252522883289; -0.0007068626023644258;
  0.16132330948837942; -0.0006951278354759891;
  0.15994455336882338; -0.0006836744462996721;
  0.15858842991666752; -0.0006724937477081127;
  0.15725440216622527; -0.0006615773771096749;
  0.1559419495642779; -0.0006509172823351703;
  0.15465056736275967; -0.0006405057082204477;
  0.15337976603761408; -0.0006303351838466816;
  0.15212907073254192; -0.000620398510402491;
  0.15089802072643135; -0.0006106887496341584;
  0.1496861689233263; -0.0006011992128522323;
  0.14849308136385003; -0.0005919234504646699;
  0.1473183367570596; -0.0005828552420084334;
  0.14616152603176086; -0.0005739885866531021;
  0.1450222519063649; -0.000565317694151594;
  0.1439001284764157; -0.000556836976214543;
  0.14279478081896416; -0.0005485410382862212;
  0.1417058446130057; -0.0005404246717011696;
  0.14063296577524073; -0.0005324828462018831;
  0.13957580011045426; -0.0005247107027990158;
  0.13853401297584686; -0.0005171035469566136;
  0.13750727895868448; -0.0005096568420858678;
  0.1359947125669697; -0.0009975561570099785;
  0.1340277608780958; -0.0009695898408157266;
  0.13211559669432923; -0.0009427584241843967;
  0.1302560102587985; -0.000917002516778137;
  0.12844690678229959; -0.0008922664928772568;
  0.12668629919609256; -0.000868498213420571;
  0.12497230143695891; -0.0008456487713222553;
  0.1233031222201754; -0.0008236722578967132;
  0.12167705926016986; -0.0008025255484444726;
  0.12009249390231744; -0.0007821681052490952;
  0.118547886132658; -0.000762561796410465;
  0.11704176993530459; -0.0007436707290961102;
  0.11557274897000766; -0.0007254610959316956;
  0.11413949254477089; -0.000707901033376393;
  0.11274073186060887; -0.0006909604910402499;
  0.11137525650752197; -0.0006746111110004019;
  0.11004191119255827; -0.0006588261162623404;
  0.10873959268245878; -0.0006435802075926162;
  0.10746724694485621; -0.0006288494680213386;
  0.10622386647333475; -0.0006146112743775358;
  0.10500848778287296; -0.0006008442152786511;
  0.10382018906329642; -0.000587528015047877;
  0.10265808797937048; -0.0005746434630802869;
  0.10152133960707922; -0.0005621723482213594;
  0.10040913449646936; -0.0005500973977600042;
  0.09932069685219902; -0.0005384022206729998;
  0.09825528282362489; -0.0005270712547892491;
  0.09721217889689598; -0.0005160897175707701;
  0.09619070038210166; -0.000505443560233188;
  0.09519018998905247; -0.0004951194249519307;
  0.09421001648575837; -0.00048510460492161474;
  0.0932495734341142; -0.0004753870070554441;
  0.09230827799771057; -0.00046595511712902143;
  0.09138556981706382; -0.00045679796718897685;
  0.09048090994790238; -0.00044790510506138804;
  0.08959377985846421; -0.00043926656580824716;
  0.08872368048205034; -0.0004308728449923467;
  0.08787013132134842; -0.00042271487362201325;
  0.08703266960128635; -0.0004147839946572222;
  0.08621084946740414; -0.00040707194096786147;
  0.08540424122694162; -0.00039957081464336104;
  0.08461243063003389; -0.00039227306756064117;
  0.0838350181885845; -0.0003851714831244172;
  0.08307161853055255; -0.00037825915910039674;
  0.08232185978754218; -0.0003715294914678633;
  0.0815853830137247; -0.0003649761592236135;
  0.08086184163425425; -0.0003585931100742388;
  0.08015090092145973; -0.00035237454695836393;
  0.0794522374972076; -0.00034631491534470326;
  0.07876553885993515; -0.0003404088912557059;
  0.07809050293494968; -0.0003346513699701644;
  0.07742683764668018; -0.0003290374553614796;
  0.07677426051165046; -0.0003235624498313345;
  0.07613249825102088; -0.00031822184480135516;
  0.07550128642161812; -0.0003130113117279418;
  0.07488036906443922; -0.0003079266936078629;
  0.07426949836967905; -0.0003029639969444296;
  0.07366843435738842; -0.0002981193841461261;
  0.07307694457292442; -0.00029338916633147655;
  0.07249480379640554; -0.00028876979651569213;
  0.07192179376543047; -0.00028425786315627405;
  0.07135770291036507; -0.0002798500840362644;
  0.0708023261015415; -0.00027554330046523695;
  0.07025546440775346; -0.00027133447177942626;
  0.06945071717732322; -0.000530397038198473;
  0.06840577038849942; -0.0005146673114896613;
  0.06739159134790351; -0.0004996225585385337;
  0.06640684953603677; -0.0004852238234307503;
  0.06545028959208049; -0.0004714348644458844;
  0.06452072611171365; -0.0004582219315304814;
  0.06361703886871219; -0.00044555356465376283;
  0.06273816842080845; -0.0004334004108475919;
  0.06188311206442508; -0.0004217350579879937;
  0.061050920106554156; -0.00041053188359874306;
  0.06024069242529227; -0.00039976691715274814;
  0.059451575293415895; -0.0003894177145179644;
  0.05868275844193456; -0.0003794632433446249;
  0.057933472342831145; -0.00036988377832244203;
  0.0572029856922228; -0.00036066080535250957;
  0.056490603076982; -0.0003517769337809588;
  0.05579566280947102; -0.000343215815931764;
  0.05511753491648672; -0.000334962073255967;
  0.05445561926980594; -0.0003270012284853141;
  0.05380934384688174; -0.00031931964324100667;
  0.05317816311128282; -0.00031190446060394133;
  0.0525615565034047; -0.00030474355220231594;
  0.05195902703282533; -0.0002978254694165413;
  0.05137009996443711; -0.00029113939834067576;
  0.0507943215911737; -0.0002846751181746544;
  0.05023125808676943; -0.00027842296275290746;
  0.04968049443254916; -0.00027237378494298487;
  0.049141633412753925; -0.0002665189236729046;
  0.04861429467336723; -0.0002608501733684504;
  0.04809811383982387; -0.0002553597556018507;
  0.04759274168936168; -0.0002500402927714302;
  0.04709784337412112; -0.0002448847836481664;
  0.04661309769141039; -0.0002398865806397981;
  0.046138196397839185; -0.0002350393686364012;
  0.045672843564284235; -0.000230337145313324;
  0.04521675496888689; -0.00022577420277819166;
  0.04476965752549958; -0.00022134511045847417;
  0.04433128874519618; -0.0002170446991349696;
  0.043901396228642316; -0.00021286804603457793;
  0.0434797371872875; -0.0002088104609030202;
  0.04306607799149306; -0.00020486747298476308;
  0.04266019374384902; -0.0002010348188434129;
  0.04226186787606129; -0.0001973084309613;
  0.04187089176790777; -0.00019368442706194463;
  0.041487064386870214; -0.00019015910010361926;
  0.041110191947147795; -0.00018672890889634972;
  0.040740087586850215; -0.00018339046929846225;
  0.040376571062252085; -0.00018014054595222087;
  0.040019468458068364; -0.00017697604452124267;
  0.039668611912781974; -0.00017389400439525173;
  0.039323839358121455; -0.0001708915918303633;
  0.03898499427184708; -0.0001679660934954997;
  0.0386519254430609; -0.0001651149103977477;
  0.03832448674930821; -0.00016233555216149475;
  0.03800253694478663; -0.00015962563163804066;
  0.0376859394590235; -0.00015698285982409133;
  0.03737456220542429; -0.00015440504106911164;
  0.03706827739913301; -0.00015189006855296093;
  0.03676696138368155; -0.00014943592001656449;
  0.0364704944659381; -0.00014704065372960032;
  0.036178760758895666; -0.0001447024046803113;
  0.03589164803187044; -0.0001424193809735936;
  0.03560904756770659; -0.0001401898604244756;
  0.03533085402660871; -0.00013801218733498934
]%dec.

(** src/error.rs:1261-4846 [CHEBYSHEV_COEFFS_1], 3584 entries, digits as in the source *)
Definition CHEBYSHEV_COEFFS_1 : list dec := [
  0.0000007227635731337331; -0.0000000005048499485391656; 0.000000000000313586201559153; -0.00000000000000017715352193375965;
  0.00000000000000000009242165795315633; -0.000000000000000000000045021909457012356; 0.00000000000000000000000002065035689267159; -0.000000000000000000000000000008976837551444289;
  0.0000007197419853612048; -0.0000000005023483303052798; 0.00000000000031182019905625017; -0.0000000000000001760482346454281;
  0.00000000000000000009179365803962325; -0.00000000000000000000004469279301295192; 0.000000000000000000000000020489441076733733; -0.000000000000000000000000000008902803316034542;
  0.0000007167353650022922; -0.0000000004998607959802216; 0.00000000000031006521183820853; -0.00000000000000017495045578221887;
  0.00000000000000000009117024778338832; -0.000000000000000000000044366240590507686; 0.0000000000000000000000000203298520867918; -0.000000000000000000000000000008829411479548639;
  0.0000007137436278173096; -0.0000000004973872577413163; 0.0000000000003083211650954399; -0.00000000000000017386013048302913;
  0.00000000000000000009055139143632263; -0.000000000000000000000044042231052701166; 0.000000000000000000000000020171578412283232; -0.00000000000000000000000000000875665620464761;
  0.0000007107666900917163; -0.000000000494927628362177; 0.00000000000030658798456482796; -0.00000000000000017277720431396315;
  0.00000000000000000008993705354492971; -0.000000000000000000000043720743445884826; 0.00000000000000000000000002001460864721877; -0.000000000000000000000000000008684531709324467;
  0.0000007078044686325521; -0.0000000004924818212083502; 0.00000000000030486559652547426; -0.00000000000000017170162326481217;
  0.00000000000000000008932719894779055; -0.00000000000000000000004340175699807687; 0.00000000000000000000000001985893148919141; -0.000000000000000000000000000008613032266358863;
  0.000000704856880764898; -0.0000000004900497502329945; 0.00000000000030315392779447836; -0.0000000000000001706333337455647;
  0.00000000000000000008872179277303184; -0.00000000000000000000004308525111731178; 0.000000000000000000000000019704535738395097; -0.000000000000000000000000000008542152202777339;
  0.0000007019238443283648; -0.0000000004876313299725942; 0.00000000000030145290572275345; -0.00000000000000016957228258294694;
  0.00000000000000000008812080043581723; -0.000000000000000000000042771205390006504; 0.000000000000000000000000019551410296653097; -0.000000000000000000000000000008471885899319074;
  0.0000006990052776736043; -0.0000000004852264755427043; 0.0000000000002997624581908761; -0.00000000000000016851841701699345;
  0.0000000000000000000875241876358613; -0.000000000000000000000042459599579342074; 0.000000000000000000000000019399544166455945; -0.000000000000000000000000000008402227789907091;
  0.0000006961010996588485; -0.0000000004828351026337306; 0.0000000000002980825136049701; -0.0000000000000001674716846976471;
  0.00000000000000000008693192035496612; -0.00000000000000000000004215041362366059; 0.000000000000000000000000019248926450008845; -0.000000000000000000000000000008333172361124865;
  0.0000006932112296464733; -0.0000000004804571275067413; 0.0000000000002964130008926243; -0.00000000000000016643203368138895;
  0.0000000000000000000863439648545801; -0.00000000000000000000004184362763487731; 0.000000000000000000000000019099546348288462; -0.000000000000000000000000000008264714151698268;
  0.0000006903355874995861; -0.0000000004780924669893114; 0.00000000000029475384949884415; -0.00000000000000016539941242789687;
  0.000000000000000000085760287673379; -0.000000000000000000000041539221896907837; 0.000000000000000000000000018951393160108967; -0.0000000000000000000000000000081968477519828;
  0.0000006874740935786398; -0.0000000004757410384713998; 0.000000000000293104989382036; -0.0000000000000001643737697967332;
  0.00000000000000000008518085562486888; -0.000000000000000000000041237176864110095; 0.0000000000000000000000000188044562811973; -0.000000000000000000000000000008129567803456049;
  0.0000006846266687380707; -0.0000000004734027599012576; 0.00000000000029146635101002487; -0.0000000000000001633550550440612;
  0.00000000000000000008460563579501067; -0.00000000000000000000004093747315974106; 0.000000000000000000000000018658725203277487; -0.000000000000000000000000000008062868998215323;
  0.0000006817932343229608; -0.0000000004710775497813691; 0.0000000000002898378653561048; -0.0000000000000001623432178193896;
  0.00000000000000000008403459553986638; -0.000000000000000000000040640091574428116; 0.00000000000000000000000001851418951316396; -0.000000000000000000000000000007996746078480402;
  0.0000006789737121657248; -0.000000000468765327164423; 0.00000000000028821946389512134; -0.00000000000000016133820816234542;
  0.00000000000000000008346770248326646; -0.00000000000000000000004034501306465475; 0.000000000000000000000000018370838891863815; -0.000000000000000000000000000007931193836101354;
  0.0000006761680245828202; -0.0000000004664660116493165; 0.0000000000002866110785995866; -0.00000000000000016033997649947473;
  0.00000000000000000008290492451449834; -0.00000000000000000000004005221875126063; 0.000000000000000000000000018228663113687832; -0.000000000000000000000000000007866207112071367;
  0.0000006733760943714829; -0.0000000004641795233771885; 0.0000000000002850126419358259; -0.00000000000000015934847364107088;
  0.0000000000000000000823462297860159; -0.00000000000000000000003976168991795579; 0.000000000000000000000000018087652045370264; -0.000000000000000000000000000007801780796044531;
  0.0000006705978448064847; -0.00000000046190578302748495; 0.0000000000002834240868601559; -0.0000000000000001583636507780301;
  0.00000000000000000008179158671116959; -0.000000000000000000000039473408009848833; 0.000000000000000000000000017947795645197236; -0.000000000000000000000000000007737909825858538;
  0.0000006678331996369159; -0.00000000045964471181405394; 0.00000000000028184534681509443; -0.00000000000000015738545947873426;
  0.00000000000000000008124096396195703; -0.000000000000000000000039187354631989017; 0.0000000000000000000000000178090839621437; -0.000000000000000000000000000007674589187062222;
  0.0000006650820830829899; -0.00000000045739623148127115; 0.00000000000028027635572560077; -0.0000000000000001564138516859606;
  0.00000000000000000008069433046679401; -0.000000000000000000000038903511547922104; 0.000000000000000000000000017671507135018857; -0.00000000000000000000000000000761181391244792;
  0.0000006623444198328721; -0.0000000004551602643001952; 0.00000000000027871704799534734; -0.00000000000000015544877971381792;
  0.00000000000000000008015165540830559; -0.000000000000000000000038621860678259775; 0.00000000000000000000000001753505539161993; -0.000000000000000000000000000007549579081588575;
  0.0000006596201350395309; -0.000000000452936733064753; 0.00000000000027716735850302154; -0.00000000000000015449019624470912;
  0.00000000000000000007961290822113701; -0.000000000000000000000038342384099262533; 0.000000000000000000000000017399719047894266; -0.000000000000000000000000000007487879820379549;
  0.0000006569091543176121; -0.0000000004507255610879539; 0.0000000000002756272225986577; -0.0000000000000001535380543263202;
  0.0000000000000000000790780585897846; -0.000000000000000000000038065064041435966; 0.000000000000000000000000017265488507109605; -0.000000000000000000000000000007426711300585073;
  0.0000006542114037403356; -0.00000000044852667219813384; 0.00000000000027409657609999936; -0.00000000000000015259230736863477;
  0.00000000000000000007854707644644595; -0.000000000000000000000037789882888140196; 0.00000000000000000000000001713235425903249; -0.000000000000000000000000000007366068739389336;
  0.0000006515268098364145; -0.00000000044633999073522805; 0.0000000000002725753552888912; -0.00000000000000015165290914097463;
  0.00000000000000000007801993196888968; -0.000000000000000000000037516823174212414; 0.000000000000000000000000017000306879114724; -0.000000000000000000000000000007305947398952093;
  0.000000648855299586997; -0.0000000004441654415470724; 0.0000000000002710634969077; -0.00000000000000015071981376906536;
  0.00000000000000000007749659557834437; -0.00000000000000000000003724586758460239; 0.000000000000000000000000016869337027687758; -0.000000000000000000000000000007246342585968808;
  0.0000006461968004226294; -0.0000000004420029499857338; 0.0000000000002695609381557656; -0.00000000000000014979297573212765;
  0.00000000000000000007697703793740634; -0.000000000000000000000036976998953020767; 0.00000000000000000000000001673943544916499; -0.000000000000000000000000000007187249651235248;
  0.0000006435512402202423; -0.00000000043985244190386805; 0.00000000000026806761668588006; -0.00000000000000014887234985999308;
  0.00000000000000000007646122994796648; -0.000000000000000000000036710200260600106; 0.000000000000000000000000016610592971251834; -0.000000000000000000000000000007128663989216488;
  0.0000006409185473001577; -0.0000000004377138436511066; 0.0000000000002665834706007961; -0.0000000000000001479578913302451;
  0.00000000000000000007594914274915563; -0.000000000000000000000036445454634568454; 0.000000000000000000000000016482800504163526; -0.000000000000000000000000000007070581037620297;
  0.0000006382986504231175; -0.00000000043558708207047057; 0.00000000000026510843844976356; -0.00000000000000014704955566538438;
  0.00000000000000000007544074771530841; -0.00000000000000000000003618274534693543; 0.000000000000000000000000016356049039850556; -0.000000000000000000000000000007012996276974832;
  0.0000006356914787873345; -0.0000000004334720844948125; 0.00000000000026364245922509445; -0.0000000000000001461472987300184;
  0.00000000000000000007493601645394545; -0.00000000000000000000003592205581319057; 0.000000000000000000000000016230329651231672; -0.000000000000000000000000000006955905230210626;
  0.0000006330969620255637; -0.0000000004313687787432856; 0.00000000000026218547235875584; -0.0000000000000001452510767280753;
  0.00000000000000000007443492080377371; -0.00000000000000000000003566336959101395; 0.000000000000000000000000016105633491434374; -0.000000000000000000000000000006899303462246785;
  0.0000006305150302021948; -0.00000000042927709311784003; 0.00000000000026073741771899033; -0.00000000000000014436084620004155;
  0.00000000000000000007393743283270475; -0.00000000000000000000003540667037899886; 0.000000000000000000000000015981951793042797; -0.0000000000000000000000000000068431865795814;
  0.0000006279456138103666; -0.00000000042719695639974595; 0.0000000000002592982356069644; -0.00000000000000014347656402022324;
  0.00000000000000000007344352483589077; -0.000000000000000000000035151942015386476; 0.00000000000000000000000001585927586735296; -0.000000000000000000000000000006787550229886079;
  0.0000006253886437691004; -0.0000000004251282978461438; 0.0000000000002578678667534436; -0.00000000000000014259818739403095;
  0.00000000000000000007295316933377847; -0.000000000000000000000034899168476812364; 0.000000000000000000000000015737597103635252; -0.000000000000000000000000000006732390101604603;
  0.0000006228440514204559; -0.0000000004230710471866203; 0.00000000000025644625231549516; -0.00000000000000014172567385528784;
  0.00000000000000000007246633907018004; -0.000000000000000000000034648333877064757; 0.00000000000000000000000001561690696840412; -0.000000000000000000000000000006677701923555615;
  0.0000006203117685267066; -0.0000000004210251346198114; 0.00000000000025503333387321704; -0.00000000000000014085898126356061;
  0.0000000000000000000719830070103618; -0.000000000000000000000034399422465854457; 0.000000000000000000000000015497197004694856; -0.000000000000000000000000000006623481464539348;
  0.000000617791727267535; -0.000000000418990490810031; 0.00000000000025362905342649396; -0.0000000000000001399980678015136;
  0.00000000000000000007150314633914981; -0.0000000000000000000000341524186275962; 0.00000000000000000000000001537845883134746; -0.000000000000000000000000000006569724532948309;
  0.0000006152838602372494; -0.00000000041696704688392554; 0.00000000000025223335339177937; -0.00000000000000013914289197228516;
  0.00000000000000000007102673045905237; -0.00000000000000000000003390730688020152; 0.000000000000000000000000015260684142297423; -0.000000000000000000000000000006516426976381903;
  0.0000006127881004420196; -0.0000000004149547344271541; 0.00000000000025084617659890387; -0.0000000000000001382934125968869;
  0.00000000000000000007055373298839958; -0.000000000000000000000033664071873882784; 0.000000000000000000000000015143864705873473; -0.000000000000000000000000000006463584681264954;
  0.0000006103043812971324; -0.00000000041295348548109426; 0.0000000000002494674662879093; -0.00000000000000013744958881162468;
  0.00000000000000000007008412775949935; -0.00000000000000000000003342269838996855; 0.000000000000000000000000015027992364102094; -0.000000000000000000000000000006411193572470053;
  0.0000006078326366242673; -0.0000000004109632325395728; 0.00000000000024809716610590854; -0.00000000000000013661138006554195;
  0.00000000000000000006961788881681005; -0.000000000000000000000033183171339729856; 0.00000000000000000000000001491305903201886; -0.000000000000000000000000000006359249612943753;
  0.000000605372800648792; -0.00000000040898390854562185; 0.0000000000002467352201039712; -0.00000000000000013577874611788484;
  0.00000000000000000006915499041512942; -0.00000000000000000000003294547576321757; 0.00000000000000000000000001479905669698642; -0.000000000000000000000000000006307748803336496;
  0.0000006029248079970762; -0.0000000004070154468882593; 0.0000000000002453815727340336; -0.00000000000000013495164703558884;
  0.00000000000000000006869540701779979; -0.00000000000000000000003270959682811057; 0.00000000000000000000000001468597741801915; -0.000000000000000000000000000006256687181636292;
  0.0000006004885936938255; -0.00000000040505778139929443; 0.0000000000002440361688458347; -0.00000000000000013413004319078697;
  0.00000000000000000006823911329492921; -0.00000000000000000000003247551982857468; 0.000000000000000000000000014573813325114323; -0.000000000000000000000000000006206060822806094;
  0.0000005980640931594342; -0.00000000040311084635015745; 0.0000000000002426989536838767; -0.0000000000000001333138952583392;
  0.00000000000000000006778608412162863; -0.000000000000000000000032243230184132225; 0.000000000000000000000000014462556618589817; -0.000000000000000000000000000006155865838424811;
  0.000000595651242207357; -0.0000000004011745764487537; 0.0000000000002413698728844094; -0.00000000000000013250316421338287;
  0.00000000000000000006733629457626472; -0.000000000000000000000032012713438542187; 0.00000000000000000000000001435219956842822; -0.000000000000000000000000000006106098376331944;
  0.0000005932499770414998; -0.0000000003992489068363412; 0.00000000000024004887247244026; -0.00000000000000013169781132890401;
  0.00000000000000000006688971993872836; -0.000000000000000000000031783955258690764; 0.000000000000000000000000014242734513627308; -0.000000000000000000000000000006056754620275803;
  0.0000005908602342536284; -0.0000000003973337730844332; 0.00000000000023873589885876753; -0.00000000000000013089779817332953;
  0.00000000000000000006644633568871853; -0.00000000000000000000003155694143349228; 0.000000000000000000000000014134153861556847; -0.000000000000000000000000000006007830789565262;
  0.0000005884819508207964; -0.00000000039542911119172285; 0.000000000000237430898837038; -0.00000000000000013010308660813947;
  0.00000000000000000006600611750404156; -0.00000000000000000000003133165787280034; 0.000000000000000000000000014026450087321575; -0.00000000000000000000000000000595932313872501;
  0.0000005861150641027918; -0.0000000003935348575810327; 0.00000000000023613381958082826; -0.0000000000000001293136387855001;
  0.0000000000000000000655690412589256; -0.000000000000000000000031108090606329136; 0.00000000000000000000000001391961573313043; -0.0000000000000000000000000000059112279571542836;
  0.0000005837595118396; -0.0000000003916509490962865; 0.0000000000002348446086407496; -0.0000000000000001285294171459167;
  0.00000000000000000006513508302234997; -0.000000000000000000000030886225782584757; 0.000000000000000000000000013813643407671828; -0.0000000000000000000000000000058635415687890185;
  0.000000581415232148888; -0.00000000038977732299950463; 0.00000000000023356321394157624; -0.00000000000000012775038441590661;
  0.00000000000000000006470421905638958; -0.00000000000000000000003066604966780651; 0.00000000000000000000000001370852578549503; -0.000000000000000000000000000005816260331767403;
  0.0000005790821635235033; -0.00000000038791391696782207; 0.00000000000023228958377939676; -0.00000000000000012697650360569193;
  0.00000000000000000006427642581457393; -0.00000000000000000000003044754864491803; 0.000000000000000000000000013604255606397484; -0.000000000000000000000000000005769380638098786;
  0.0000005767602448289927; -0.0000000003860606690905293; 0.00000000000023102366681878864; -0.00000000000000012620773800691176;
  0.00000000000000000006385167994026094; -0.000000000000000000000030230709212488193; 0.0000000000000000000000000135008256748181; -0.000000000000000000000000000005722898913335915;
  0.0000005744494153011383; -0.00000000038421751786613547; 0.0000000000002297654120900152; -0.00000000000000012544405119035409;
  0.00000000000000000006342995826502497; -0.000000000000000000000030015517983701656; 0.000000000000000000000000013398228859236386; -0.000000000000000000000000000005676811616250465;
  0.0000005721496145435105; -0.00000000038238440219945436; 0.00000000000022851476898624567; -0.0000000000000001246854070037066;
  0.00000000000000000006301123780705952; -0.000000000000000000000029801961685338967; 0.000000000000000000000000013296458091577416; -0.000000000000000000000000000005631115238511817;
  0.0000005698607825250396; -0.0000000003805612613987118; 0.00000000000022727168726079712; -0.00000000000000012393176956932696;
  0.00000000000000000006259549576959386; -0.00000000000000000000002959002715676618; 0.000000000000000000000000013195506366622526; -0.000000000000000000000000000005585806304369067;
  0.000000567582859577603; -0.00000000037874803517267565; 0.0000000000002260361170243989; -0.00000000000000012318310328203168;
  0.00000000000000000006218270953932386; -0.00000000000000000000002937970134893381; 0.000000000000000000000000013095366741425723; -0.0000000000000000000000000000055408813703362206;
  0.0000005653157863936315; -0.00000000037694466362780744; 0.00000000000022480800874247905; -0.00000000000000012243937280690388;
  0.00000000000000000006177285668485681; -0.000000000000000000000029170971323385134; 0.000000000000000000000000012996032334735726; -0.000000000000000000000000000005496337024880541;
  0.0000005630595040237306; -0.0000000003751510872654353; 0.00000000000022358731323247257; -0.0000000000000001217005430771197;
  0.00000000000000000006136591495516997; -0.00000000000000000000002896382425127361; 0.000000000000000000000000012897496326423592; -0.0000000000000000000000000000054521698881140246;
  0.0000005608139538743204; -0.00000000037336724697894887; 0.00000000000022237398166115111; -0.00000000000000012096657929179292;
  0.00000000000000000006096186227808287; -0.000000000000000000000028758247412389527; 0.000000000000000000000000012799751956915851; -0.000000000000000000000000000005408376611487967;
  0.0000005585790777052918; -0.0000000003715930840510151; 0.00000000000022116796554197454; -0.00000000000000012023744691383804;
  0.00000000000000000006056067675874315; -0.00000000000000000000002855422819419556; 0.000000000000000000000000012702792526633141; -0.0000000000000000000000000000053649538774905826;
  0.0000022209866025131884; -0.000000002951598857701975; 0.000000000003509960841883914; -0.000000000000003812887434538193;
  0.0000000000000000038377105240171656; -0.000000000000000000003616139850000721; 0.0000000000000000000000032150600302739404; -0.0000000000000000000000000027138632484194876;
  0.000002203360944314813; -0.0000000029236710744498927; 0.000000000003472061221240763; -0.0000000000000037671372291066785;
  0.0000000000000000037874428357737806; -0.0000000000000000000035650876918416386; 0.0000000000000000000000031666017008049965; -0.0000000000000000000000000026705161357100577;
  0.0000021859019468730413; -0.0000000028960446661690662; 0.000000000003434616100831138; -0.000000000000003721985969174995;
  0.000000000000000003737884479429115; -0.000000000000000000003514804658515008; 0.0000000000000000000000031189170384797135; -0.0000000000000000000000000026278981066172905;
  0.000002168607812798305; -0.000000002868716020702383; 0.0000000000033976195335454627; -0.0000000000000036774252070217065;
  0.0000000000000000036890247733982616; -0.000000000000000000003465278475743151; 0.0000000000000000000000030719930358090418; -0.000000000000000000000000002585996309597935;
  0.000002151476766231922; -0.0000000028416815731334013; 0.000000000003361065656113904; -0.000000000000003633446622079157;
  0.000000000000000003640853206487964; -0.000000000000000000003416497075528478; 0.0000000000000000000000030258169144968147; -0.0000000000000000000000000025447981295700165;
  0.000002134507052564653; -0.00000000281493780512069; 0.000000000003324948687844996; -0.000000000000003590042018905999;
  0.000000000000000003593359435034202; -0.0000000000000000000033684485925202386; 0.0000000000000000000000029803761212243173; -0.0000000000000000000000000025042911833867128;
  0.0000021176969381592237; -0.0000000027884812442421805; 0.0000000000032892629293843773; -0.000000000000003547203325193761;
  0.000000000000000003546533280090184; -0.0000000000000000000033211213604480833; 0.000000000000000000000002935658323515508; -0.000000000000000000000000002464463315400092;
  0.0000021010447100767514; -0.0000000027623084633493688; 0.0000000000032540027614932853; -0.000000000000003504922589806868;
  0.000000000000000003500364724663798; -0.000000000000000000003274503908621135; 0.0000000000000000000000028916514056813026; -0.0000000000000000000000000024253025931128743;
  0.000002084548675807016; -0.0000000027364160799312123; 0.0000000000032191626438464933; -0.0000000000000034631919808555155;
  0.0000000000000000034548439110036324; -0.0000000000000000000032285849584913376; 0.0000000000000000000000028483434648413472; -0.000000000000000000000000002386797302916406;
  0.0000020682071630025206; -0.000000002710800755487565; 0.000000000003184737113849351; -0.0000000000000034220037838008274;
  0.0000000000000000034099611379326657; -0.0000000000000000000031833534202798447; 0.0000000000000000000000028057228070217432; -0.000000000000000000000000002348935945913082;
  0.0000020520185192162813; -0.0000000026854591949120026; 0.0000000000031507207854736193; -0.0000000000000033813503995917258;
  0.0000000000000000033657068582287486; -0.000000000000000000003138798389665244; 0.000000000000000000000002763777943327224; -0.0000000000000000000000000023117072338214775;
  0.0000020359811116432943; -0.000000002660388145883887; 0.0000000000031171083481117766; -0.00000000000000334122434283296;
  0.00000000000000000332207167605103; -0.000000000000000000003094909144532444; 0.0000000000000000000000027224975861863057; -0.000000000000000000000000002275100084962502;
  0.0000020200933268656203; -0.0000000026355843982695202; 0.000000000003083894565449493; -0.0000000000000033016182399837464;
  0.000000000000000003279046344411478; -0.0000000000000000000030516751417810646; 0.0000000000000000000000026818706456679724; -0.000000000000000000000000002239103620324911;
  0.00000200435357060104; -0.000000002611044783532253; 0.0000000000030510742743559663; -0.000000000000003262524827586484;
  0.0000000000000000032366217626906734; -0.000000000000000000003009086014192194; 0.0000000000000000000000026418862258684777; -0.0000000000000000000000000022037071597085588;
  0.0000019887602674552166; -0.0000000025867661741513923; 0.0000000000030186423837918244; -0.0000000000000032239369505250183;
  0.0000000000000000031947889741970686; -0.000000000000000000002967131567352409; 0.0000000000000000000000026025336213668836; -0.00000000000000000000000000216890021794379;
  0.000001973311860677323; -0.0000000025627454830497845; 0.000000000002986593873734298; -0.0000000000000031858475603119372;
  0.000000000000000003153539163768912; -0.000000000000000000002925801776633961; 0.0000000000000000000000025638023137479723; -0.0000000000000000000000000021346725011854326;
  0.0000019580068119190773; -0.0000000025389796630299225; 0.0000000000029549237941193766; -0.0000000000000031482497134043926;
  0.0000000000000000031128636554180683; -0.000000000000000000002885086784230072; 0.000000000000000000000002525681968191211; -0.000000000000000000000000002101013903279848;
  0.0000019428436009971327; -0.0000000025154657062184528; 0.000000000002923627263800668; -0.000000000000003111136569547949;
  0.0000000000000000030727539100149586; -0.0000000000000000000028449768962442805; 0.000000000000000000000002488162430124459; -0.0000000000000000000000000020679145022035673;
  0.000001927820725658781; -0.000000002492200643518943; 0.00000000000289269946952468; -0.0000000000000030745013901479658;
  0.000000000000000003033201523013884; -0.000000000000000000002805462579832822; 0.0000000000000000000000024512337219411502; -0.0000000000000000000000000020353645565720402;
  0.000001912936701350912; -0.0000000024691815440727852; 0.000000000002862135664922251; -0.0000000000000030383375366680437;
  0.0000000000000000029941982222179832; -0.0000000000000000000027665344603990342; 0.0000000000000000000000024148860397796938; -0.000000000000000000000000002003354502217072;
  0.0000018981900609921835; -0.0000000024464055147281008; 0.0000000000028319311695158664; -0.000000000000003002638469055053;
  0.000000000000000002955735865583119; -0.0000000000000000000027281833188388013; 0.0000000000000000000000023791097503638774; -0.0000000000000000000000000019718749488315536;
  0.0000018835793547483533; -0.0000000024238696995165275; 0.00000000000280208136774259; -0.000000000000002967397744190284;
  0.000000000000000002917806439059966; -0.000000000000000000002690400088836075; 0.000000000000000000000002343895387903067; -0.0000000000000000000000000019409166766801107;
  0.00000186910314981073; -0.0000000024015712791377584; 0.0000000000027725817079923593; -0.0000000000000029326090143662725;
  0.000000000000000002880402054473627; -0.0000000000000000000026531758542075155; 0.0000000000000000000000023092336510510334; -0.00000000000000000000000000191047063337433;
  0.000001854760030177692; -0.000000002379507470451716; 0.00000000000274342770166138; -0.0000000000000028982660257888404;
  0.0000000000000000028435149474400775; -0.0000000000000000000026165018462953368; 0.000000000000000000000002275115399922252; -0.0000000000000000000000000018805279307112602;
  0.0000018405485964392288; -0.000000002357675525978239; 0.000000000002714614922220384; -0.0000000000000028643626171039293;
  0.000000000000000002807137475318784; -0.0000000000000000000025803694414074337; 0.0000000000000000000000022415316531645517; -0.000000000000000000000000001851079841573886;
  0.0000018264674655644664; -0.000000002336072733404164; 0.000000000002686139004297487; -0.0000000000000028308927179487822;
  0.000000000000000002771262115200831; -0.000000000000000000002544770158303905; 0.000000000000000000000002208473585087005; -0.0000000000000000000000000018221177968923364;
  0.0000018125152706921239; -0.0000000023146964150976873; 0.0000000000026579956427754256; -0.0000000000000027978503475270617;
  0.0000000000000000027358814619319185; -0.0000000000000000000025096956557290945; 0.0000000000000000000000021759325228419805; -0.0000000000000000000000000017936333826645798;
  0.0000017986906609238654; -0.000000002293543927629891; 0.0000000000026301805919029147; -0.000000000000002765229613207485;
  0.0000000000000000027009882261695976; -0.0000000000000000000024751377299882953; 0.000000000000000000000002143899943660296; -0.000000000000000000000000001765618337035411;
  0.0000017849923011205004; -0.0000000022726126613033243; 0.000000000002602689664419909; -0.0000000000000027330247091455705;
  0.000000000000000002666575232474125; -0.00000000000000000000244108831256827; 0.000000000000000000000002112367472138434; -0.00000000000000000000000000173806454743254;
  0.0000017714188717009912; -0.0000000022519000396875274; 0.0000000000025755187306965328; -0.0000000000000027012299149280937;
  0.000000000000000002632635417432326; -0.0000000000000000000024075394678007696; 0.0000000000000000000000020813268775768027; -0.0000000000000000000000000017109640477586395;
  0.0000017579690684442279; -0.000000002231403519161387; 0.000000000002548663717885448; -0.0000000000000026698395942398636;
  0.000000000000000002599161827813874; -0.0000000000000000000023744833905682338; 0.0000000000000000000000020507700713680443; -0.0000000000000000000000000016843090156382044;
  0.0000017446416022935282; -0.000000002211120588462225; 0.0000000000025221206090874544; -0.0000000000000026388481935524314;
  0.0000000000000000025661476187593998; -0.00000000000000000000234191240405089; 0.0000000000000000000000020206891044344164; -0.0000000000000000000000000016580917697181284;
  0.0000017314351991638227; -0.0000000021910487682415074; 0.0000000000024958854425300824; -0.0000000000000026082502408343526;
  0.0000000000000000025335860519998547; -0.0000000000000000000023098189575144612; 0.0000000000000000000000019910761647132862; -0.0000000000000000000000000016323047670209043;
  0.0000017183485997514871; -0.000000002171185610627071; 0.000000000002469954310758988; -0.0000000000000025780403442826362;
  0.000000000000000002501470494106567; -0.0000000000000000000022781956241377342; 0.000000000000000000000001961923574689803; -0.0000000000000000000000000016069406003493914;
  0.000001705380559346781; -0.000000002151528698791774; 0.000000000002444323359841922; -0.000000000000002548213191075005;
  0.000000000000000002469794414771437; -0.000000000000000000002247035098879229; 0.0000000000000000000000019332237889758255; -0.0000000000000000000000000015819919957421044;
  0.0000016925298476488552; -0.000000002132075646528459; 0.0000000000024189887885850753; -0.0000000000000025187635461426225;
  0.0000000000000000024385513851167316; -0.000000000000000000002216330196382242; 0.0000000000000000000000019049693919342126; -0.0000000000000000000000000015574518099780108;
  0.0000016797952485832933; -0.000000002112824097831142; 0.0000000000023939468477616; -0.0000000000000024896862509629218;
  0.000000000000000002407735076033939; -0.0000000000000000000021860738489175444; 0.0000000000000000000000018771530953475826; -0.0000000000000000000000000015333130281298359;
  0.0000016671755601221434; -0.0000000020937717264823213; 0.0000000000023691938393520967; -0.000000000000002460976222372201;
  0.000000000000000002377339256551172; -0.0000000000000000000021562591043630303; 0.000000000000000000000001849767736130691; -0.000000000000000000000000001509568761164901;
  0.0000016546695941064117; -0.0000000020749162356463167; 0.0000000000023447261157968843; -0.0000000000000024326284513976372;
  0.000000000000000002347357792228598; -0.000000000000000000002126879124219623; 0.0000000000000000000000018228062740855655; -0.0000000000000000000000000014862122435925369;
  0.0000016422761760709768; -0.0000000020562553574685445; 0.0000000000023205400792598495; -0.000000000000002404638002108392;
  0.000000000000000002317784643581396; -0.000000000000000000002097927181662761; 0.000000000000000000000001796261789698582; -0.0000000000000000000000000014632368311571385;
  0.0000016299941450718893; -0.000000002037786852680635; 0.000000000002296632180903695; -0.0000000000000023770000104854786;
  0.000000000000000002288613864529751; -0.0000000000000000000020693966596288056; 0.0000000000000000000000017701274819786574; -0.0000000000000000000000000014406359985759411;
  0.0000016178223535160261; -0.000000002019508510211305; 0.0000000000022729989201763935; -0.000000000000002349709683310067;
  0.0000000000000000022598396008753954; -0.0000000000000000000020412810489357058; 0.0000000000000000000000017443966663357675; -0.0000000000000000000000000014184033373206238;
  0.0000016057596669930607; -0.0000000020014181468028888; 0.000000000002249636844108668; -0.0000000000000023227622970699196;
  0.0000000000000000022314560888042233; -0.000000000000000000002013573946437297; 0.0000000000000000000000017190627724990096; -0.000000000000000000000000001396532553441858;
  0.0000015938049641097178; -0.0000000019835136066334564; 0.0000000000022265425466223233; -0.0000000000000022961531968836317;
  0.0000000000000000022034576534145194; -0.0000000000000000000019862690532105957; 0.000000000000000000000001694119342473443; -0.0000000000000000000000000013750174654359408;
  0.0000015819571363262784; -0.0000000019657927609444107; 0.0000000000022037126678492377; -0.0000000000000022698777954423925;
  0.00000000000000000217583870727033; -0.0000000000000000000019593601727754787; 0.000000000000000000000001669560028534955; -0.0000000000000000000000000013538520021526719;
  0.0000015702150877953042; -0.0000000019482535076734986; 0.000000000002181143893460861; -0.0000000000000022439315719689486;
  0.0000000000000000021485937489795416; -0.0000000000000000000019328412093461478; 0.0000000000000000000000016453785912624246; -0.0000000000000000000000000013330302007436447;
  0.000001558577735202547; -0.0000000019308937710931405; 0.000000000002158832954008032; -0.0000000000000022183100711934897;
  0.0000000000000000021217173617962186; -0.000000000000000000001906706166113784; 0.0000000000000000000000016215688976064554; -0.0000000000000000000000000013125462046501481;
  0.0000015470440076100124; -0.0000000019137115014540024; 0.000000000002136776624270954; -0.0000000000000021930089023461606;
  0.000000000000000002095204212246765; -0.0000000000000000000018809491435598147; 0.000000000000000000000001598124918993978; -0.0000000000000000000000000012923942616298814;
  0.0000015356128463011467; -0.0000000018967046746337295; 0.000000000002114971722619166; -0.0000000000000021680237381659195;
  0.0000000000000000020690490487794955; -0.0000000000000000000018555643377992254; 0.0000000000000000000000015750407294680265; -0.000000000000000000000000001272568721821712;
  0.0000015242832046281156; -0.0000000018798712917907552; 0.0000000000020934151103813443; -0.000000000000002143350313925461;
  0.00000000000000000204324670043719; -0.0000000000000000000018305460389533576; 0.000000000000000000000001552310503862015; -0.0000000000000000000000000012530640358477115;
  0.000001513054047861147; -0.0000000018632093790231203; 0.0000000000020721036912247706; -0.000000000000002118984426471936;
  0.000000000000000002017792075552223; -0.000000000000000000001805888629551646; 0.0000000000000000000000015299285160078448; -0.0000000000000000000000000012338747529517318;
  0.0000015019243530399028; -0.0000000018467169870322117; 0.000000000002051034410544323; -0.0000000000000020949219332831923;
  0.0000000000000000019926801604638757; -0.000000000000000000001781586582961761; 0.0000000000000000000000015078891369771956; -0.0000000000000000000000000012149955191737879;
  0.0000014908931088268568; -0.0000000018303921907913556; 0.0000000000020302042548608223; -0.000000000000002071158751539282;
  0.0000000000000000019679060182574244; -0.0000000000000000000017576344618476282; 0.0000000000000000000000014861868333553613; -0.0000000000000000000000000011964210755595352;
  0.0000014799593153626442; -0.0000000018142330892191861; 0.0000000000020096102512285907; -0.000000000000002047690857208965;
  0.0000000000000000019434647875246283; -0.0000000000000000000017340269166548093; 0.0000000000000000000000014648161655470022; -0.0000000000000000000000000011781462564041453;
  0.0000014691219841233589; -0.000000001798237804857716; 0.0000000000019892494666520694; -0.000000000000002024514284150964;
  0.0000000000000000019193516811452308; -0.0000000000000000000017107586841227433; 0.0000000000000000000000014437717861132061; -0.0000000000000000000000000011601659875298923;
  0.0000014583801377797668; -0.0000000017824044835550406; 0.0000000000019691190075113527; -0.0000000000000020016251232297167;
  0.0000000000000000018955619850891062; -0.0000000000000000000016878245858233442; 0.0000000000000000000000014230484381392526; -0.0000000000000000000000000011424752845967801;
  0.00000144773281005841; -0.000000001766731294152599; 0.0000000000019492160189964937; -0.0000000000000019790195214453798;
  0.000000000000000001872091057238684; -0.000000000000000000001665219526725474; 0.0000000000000000000000014026409536324939; -0.000000000000000000000000001125069251445556;
  0.000001437179045604574; -0.0000000017512164281769313; 0.0000000000019295376845504377; -0.0000000000000019566936810778423;
  0.000000000000000001848934326231291; -0.0000000000000000000016429384937848144; 0.0000000000000000000000013825442519497749; -0.0000000000000000000000000011079430784724653;
  0.00000142671789984709; -0.0000000017358580995358527; 0.000000000001910081225320446; -0.000000000000001934643858844518;
  0.0000000000000000018260872903210612; -0.0000000000000000000016209765545586634; 0.0000000000000000000000013627533382538277; -0.000000000000000000000000001091092041035118;
  0.0000014163484388649477; -0.000000001720654544218987; 0.000000000001890843899617878; -0.0000000000000019128663650716725;
  0.000000000000000001803545516260067; -0.0000000000000000000015993288558452058; 0.000000000000000000000001343263301998083; -0.000000000000000000000000001074511497888851;
  0.000001406069739255694; -0.0000000017056040200025871; 0.0000000000018718230023861884; -0.0000000000000018913575628790683;
  0.0000000000000000017813046381983314; -0.0000000000000000000015779906223467985; 0.0000000000000000000000013240693154393597; -0.0000000000000000000000000010581968896529801;
  0.000001395880888005586; -0.0000000016907048061585783; 0.0000000000018530158646770147; -0.000000000000001870113867377697;
  0.000000000000000001759360356602389; -0.0000000000000000000015569571553568375; 0.0000000000000000000000013051666321778954; -0.0000000000000000000000000010421437373063522;
  0.0000013857809823614798; -0.000000001675955203167763; 0.0000000000018344198531342234; -0.0000000000000018491317448803777;
  0.0000000000000000017377084371920677; -0.0000000000000000000015362238314697655; 0.0000000000000000000000012865505857241983; -0.0000000000000000000000000010263476407116139;
  0.0000013757691297044288; -0.0000000016613535324371198; 0.000000000001816032369485785; -0.000000000000001828407712125007;
  0.000000000000000001716344709895171; -0.0000000000000000000015157861013138009; 0.0000000000000000000000012682165880922083; -0.0000000000000000000000000010108042771676346;
  0.000005443658088272057; -0.000000013117798225210366; 0.000000000028621384561309207; -0.00000000000005752953867676684;
  0.00000000000000010782915278930216; -0.00000000000000000019016626833663775; 0.0000000000000000000003177576434506839; -0.000000000000000000000000505834690219623;
  0.000005365633635538944; -0.000000012891111183528917; 0.000000000028052506031010867; -0.0000000000000562514214689117;
  0.00000000000000010520207630507995; -0.00000000000000000018515428585384495; 0.00000000000000000000030878983606412186; -0.0000000000000000000000004906683017596853;
  0.000005288955753593423; -0.000000012668924462943055; 0.000000000027496252441574075; -0.000000000000055004412159507467;
  0.00000000000000010264417329904055; -0.00000000000000000018028362649024797; 0.00000000000000000000030009068261359613; -0.0000000000000000000000004759815969329645;
  0.000005213597741035377; -0.000000012451138297252734; 0.0000000000269523168251515; -0.00000000000005378769241856251;
  0.00000000000000010015349501686499; -0.0000000000000000001755500601213889; 0.00000000000000000000029165169293143787; -0.0000000000000000000000004617586526480507;
  0.00000513953348775966; -0.000000012237655343576931; 0.00000000002642040028144547; -0.00000000000005260046694957826;
  0.00000000000000009772815098569299; -0.00000000000000000017094949019810887; 0.00000000000000000000028346465846379248; -0.0000000000000000000000004479840982384879;
  0.000005066737460607982; -0.00000001202838061872534; 0.00000000002590021175083282; -0.000000000000051441962801266954;
  0.00000000000000009536630717524136; -0.00000000000000000016647794931935291; 0.0000000000000000000002755216425077334; -0.000000000000000000000000434643095503143;
  0.0000049951846893971575; -0.000000011823221437357826; 0.00000000002539146779426349; -0.00000000000005031142870096847;
  0.00000000000000009306618421982303; -0.00000000000000000016213159495834164; 0.0000000000000000000002678149708008667; -0.0000000000000000000000004217213194953473;
  0.000004924850753313187; -0.00000001162208735187831; 0.000000000024893892379719453; -0.00000000000004920813440904803;
  0.00000000000000009082605569915847; -0.00000000000000000015790670533657602; 0.0000000000000000000002603372224502121; -0.00000000000000000000000040920494003171994;
  0.000004855711767660882; -0.000000011424890094011429; 0.000000000024407216675027655; -0.00000000000004813137009358166;
  0.00000000000000008864424647594739; -0.00000000000000000015379967544034968; 0.0000000000000000000002530812211876586; -0.0000000000000000000000003970806038927528;
  0.000004787744370959124; -0.00000001123154351801194; 0.00000000002393117884682746; -0.000000000000047080445724660055;
  0.00000000000000008651913108824174; -0.0000000000000000001498070131746411; 0.0000000000000000000002460400269397867; -0.00000000000000000000000038533541768835443;
  0.000004720925712372079; -0.00000001104196354545842; 0.000000000023465523865499678; -0.00000000000004605469048766461;
  0.00000000000000008444913219473153; -0.00000000000000000014592533564945122; 0.0000000000000000000002392069277003199; -0.0000000000000000000000003739569313626244;
  0.000004655233439467018; -0.000000010856068111584314; 0.000000000023010003315870564; -0.00000000000004505345221489171;
  0.00000000000000008243271907112253; -0.0000000000000000001421513655938348; 0.0000000000000000000002325754316939246; -0.0000000000000000000000003629331223131576;
  0.000004590645686289658; -0.000000010673777113100827; 0.00000000002256437521351037; -0.000000000000044076096834922736;
  0.00000000000000008046840615585044; -0.00000000000000000013848192789305156; 0.0000000000000000000002261392598205104; -0.0000000000000000000000003522523801011645;
  0.000004527141061748191; -0.000000010495012357467683; 0.000000000022128403826451877; -0.00000000000004312200783915797;
  0.00000000000000007855475164343909; -0.00000000000000000013491394624443284; 0.00000000000000000000021989233836960275; -0.00000000000000000000000034190349172963903;
  0.000004464698638297464; -0.000000010319697513568967; 0.000000000021701859502160157; -0.00000000000004219058576495253;
  0.00000000000000007669035612386997; -0.00000000000000000013144443992772406; 0.00000000000000000000021382879199476207; -0.00000000000000000000000033187562746771273;
  0.000004403297940914977; -0.000000010147758063752787; 0.000000000021284518499590178; -0.0000000000000412812476948117;
  0.00000000000000007487386126639001; -0.00000000000000000012807052068581897; 0.0000000000000000000002079429369384064; -0.00000000000000000000000032215832720020297;
  0.00000434291893636067; -0.000000009979121257194641; 0.00000000002087616282617441; -0.00000000000004039342677112159;
  0.00000000000000007310394854623887; -0.0000000000000000001247893897119548; 0.00000000000000000000020222927449776865; -0.00000000000000000000000031274148728219744;
  0.000004283542022712638; -0.000000009813716064545662; 0.00000000002047658007958752; -0.0000000000000395265717259088;
  0.00000000000000007137933801283281; -0.00000000000000000012159833473958147; 0.00000000000000000000019668248472307154; -0.0000000000000000000000003036153478793159;
  0.000004225148019171214; -0.000000009651473133828157; 0.000000000020085563294140385; -0.00000000000003868014642514034;
  0.00000000000000006969878709799291; -0.00000000000000000011849472723125863; 0.00000000000000000000019129742033934766; -0.00000000000000000000000029477048077505826;
  0.0000041677181561240125; -0.000000009492324747541925; 0.00000000001970291079166039; -0.00000000000003785362942709131;
  0.00000000000000006806108946285592; -0.00000000000000000011547601966306866; 0.0000000000000000000001860691008836581; -0.00000000000000000000000028619777762738337;
  0.0000041112340654648; -0.00000000933620478094608; 0.00000000001932842603671961; -0.00000000000003704651355432414;
  0.00000000000000006646507388215488; -0.00000000000000000011253974290116299; 0.00000000000000000000018099270704977933; -0.00000000000000000000000027788843865736723;
  0.0000040556777711592345; -0.000000009183048661482083; 0.000000000018961917496076957; -0.00000000000003625830547883864;
  0.00000000000000006490960316460189; -0.00000000000000000010968350366718393; 0.00000000000000000000017606357523272978; -0.00000000000000000000000026983396175346856;
  0.000004001031680050721; -0.000000009032793329304816; 0.000000000018603198502204805; -0.00000000000003548852531996695;
  0.00000000000000006339357310815143; -0.00000000000000000010690498208942369; 0.00000000000000000000017127719226579892; -0.00000000000000000000000026202613197557684;
  0.000003947278572899843; -0.000000008885377198889546; 0.000000000018252087120774633; -0.00000000000003473670625460196;
  0.00000000000000006191591148896488; -0.00000000000000000010420192933669694; 0.00000000000000000000016662919034302015; -0.00000000000000000000000025445701144364173;
  0.000003894401595650997; -0.000000008740740121683539; 0.000000000017908406021980364; -0.00000000000003400239413936166;
  0.000000000000000060475577082939; -0.0000000000000000001015721653320153; 0.0000000000000000000001621153421202974; -0.0000000000000000000000002471189295962803;
  0.000003842384250920063; -0.000000008598823349772164; 0.000000000017571982355582014; -0.000000000000033285147144305315;
  0.00000000000000005907155871870064; -0.00000000000000000009901357654325724; 0.00000000000000000000015773155598865314; -0.0000000000000000000000002400044738053321;
  0.000003791210389697111; -0.00000000845956950053012; 0.000000000017242647629555965; -0.000000000000032584535397830136;
  0.00000000000000005770287436100906; -0.00000000000000000009652411384813041; 0.00000000000000000000015347387151331257; -0.00000000000000000000000023310648033288137;
  0.0000037408642032583077; -0.000000008322922522229415; 0.000000000016920237592241857; -0.000000000000031900140642389865;
  0.00000000000000005636857022354388; -0.00000000000000000009410179047082178; 0.00000000000000000000014933845503257713; -0.00000000000000000000000022641802561779433;
  0.0000036913302152813803; -0.000000008188827660576542; 0.00000000001660459211787964; -0.00000000000003123155590068853;
  0.000000000000000055067719910092874; -0.00000000000000000009174467998782558; 0.00000000000000000000014532159541066868; -0.000000000000000000000000219932417879326;
  0.000003642593274159138; -0.00000000805723142615213; 0.000000000016295555095433728; -0.0000000000000305783851520143;
  0.00000000000000005379942358318805; -0.00000000000000000008945091440053085; 0.00000000000000000000014141969993894553; -0.00000000000000000000000021364318902583687;
  0.0000035946385455057064; -0.000000007928081562727201; 0.000000000015992974320604445; -0.00000000000002994024301838965;
  0.00000000000000005256280715927187; -0.00000000000000000008721868227223796; 0.00000000000000000000013762929038010226; -0.0000000000000000000000002075440868571256;
  0.000003547451504850305; -0.000000007801327016430899; 0.0000000000156967013909302; -0.00000000000002931675446022479;
  0.00000000000000005135702152950732; -0.00000000000000000008504622692735813; 0.00000000000000000000013394699915016862; -0.00000000000000000000000020162906754933342;
  0.000003501017930513518; -0.000000007676917905745355; 0.000000000015406591603886907; -0.00000000000002870755448117177;
  0.00000000000000005018124180537668; -0.00000000000000000008293184471063134; 0.00000000000000000000013036956563331719; -0.00000000000000000000000019589228841180377;
  0.0000034553238966611813; -0.00000000755480549230408; 0.000000000015122503857894028; -0.000000000000028112287841886865;
  0.000000000000000049034666588243197; -0.00000000000000000008087388330427649; 0.0000000000000000000001268938326246768; -0.00000000000000000000000019032810090569407;
  0.0000034103557665311183; -0.00000000743494215247095; 0.000000000014844300556139687; -0.000000000000027530608782418403;
  0.00000000000000004791651726207905; -0.00000000000000000007887074010106284; 0.00000000000000000000012351674289652964; -0.00000000000000000000000018493104391453246;
  0.000003366100185828121; -0.00000000731728134967763; 0.000000000014571847513139895; -0.000000000000026962180752946727;
  0.00000000000000004682603730859009; -0.0000000000000000000769208606313644; 0.00000000000000000000012023533588344167; -0.00000000000000000000000017969583725729222;
  0.000003322544076282683; -0.000000007201777607497843; 0.00000000001430501386394971; -0.000000000000026406676152612012;
  0.000000000000000045762491643994926; -0.00000000000000000007502273704232906; 0.0000000000000000000001170467444820438; -0.00000000000000000000000017461737543492167;
  0.00000327967462936913; -0.000000007088386483437608; 0.000000000014043671975946774; -0.000000000000025863776076174395;
  0.00000000000000004472516597674142; -0.00000000000000000007317490662736095; 0.00000000000000000000011394819196134008; -0.0000000000000000000000001696907216016171;
  0.000003237479300178911; -0.000000006977064543421187; 0.000000000013787697363110104; -0.000000000000025333170068259372;
  0.00000000000000004371336618546834; -0.00000000000000000007137595040417991; 0.00000000000000000000011093698897957348; -0.0000000000000000000000001649111017524634;
  0.0000031959458014449343; -0.000000006867769336953064; 0.000000000013536968602719497; -0.000000000000024814555884949513;
  0.00000000000000004272641771654398; -0.00000000000000000006962449173978361; 0.00000000000000000000010801053070382793; -0.00000000000000000000000016027389911938935;
  0.000003155062097712956; -0.000000006760459372936891; 0.00000000001329136725440327; -0.000000000000024307639262491502;
  0.00000000000000004176366500053642; -0.00000000000000000006791919502069842; 0.00000000000000000000010516629402868661; -0.00000000000000000000000015577464876769478;
  0.0000031148163996561245; -0.00000000665509409613289; 0.00000000001305077778146427; -0.00000000000002381213369289508;
  0.00000000000000004082447088699239; -0.00000000000000000006625876436696257; 0.00000000000000000000010240183489040378; -0.0000000000000000000000001514090323857048;
  0.000003075197158528917; -0.0000000065516338642357656; 0.000000000012815087474416343; -0.000000000000023327760206207795;
  0.00000000000000003990821609692301; -0.00000000000000000006464194238834082; 0.00000000000000000000009971478567317905; -0.00000000000000000000000014717287326039163;
  0.000003036193060756782; -0.0000000064500399255556956; 0.000000000012584186376665556; -0.0000000000000228542471592566;
  0.0000000000000000390142986924154; -0.00000000000000000006306750898132359; 0.00000000000000000000009710285270424846; -0.00000000000000000000000014306213143207986;
  0.000002997793022657939; -0.0000000063502743972855146; 0.00000000001235796721227251; -0.000000000000022391330030654172;
  0.000000000000000038142133562808903; -0.00000000000000000006153428016551481; 0.00000000000000000000009456381383462929; -0.00000000000000000000000013907289902161397;
  0.000002959986185293848; -0.000000006252300244337674; 0.000000000012136325315734078; -0.00000000000002193875122187446;
  0.00000000000000003729115192689419; -0.00000000000000000006004110695806272; 0.00000000000000000000009209551610247175; -0.00000000000000000000000013520139572362105;
  0.000002922761909444995; -0.000000006156081258735078; 0.000000000011919158563724844; -0.0000000000000214962598642083;
  0.000000000000000036460800850611454; -0.00000000000000000005858687428483536; 0.00000000000000000000008969587347608333; -0.00000000000000000000000013144396445974383;
  0.000002886109770708707; -0.000000006061582039540331; 0.000000000011706367308740334; -0.000000000000021063611631416238;
  0.000000000000000035650542779742395; -0.00000000000000000005717049992708903; 0.00000000000000000000008736286467379975; -0.000000000000000000000000127797067185954;
  0.0000028500195547158117; -0.000000005968767973308431; 0.000000000011497854314585989; -0.00000000000002064056855790151;
  0.00000000000000003485985508710742; -0.00000000000000000005579093350242175; 0.0000000000000000000000850945310579803; -0.00000000000000000000000012425728084827938;
  0.0000028144812524630522; -0.000000005877605215048345; 0.000000000011293524693657516; -0.000000000000020226898862231986;
  0.00000000000000003408822963379629; -0.00000000000000000005444715547884716; 0.0000000000000000000000828889746005056; -0.0000000000000000000000001208212934814946;
  0.0000027794850557582354; -0.00000000578806066967935; 0.000000000011093285845959963; -0.00000000000001982237677584545;
  0.00000000000000003333517234397653; -0.00000000000000000005313817622086498; 0.00000000000000000000008074435591725177; -0.00000000000000000000000011748590044553177;
  0.000002745021352775197; -0.000000005700101973968443; 0.000000000010897047399814502; -0.000000000000019426782376777914;
  0.000000000000000032600202792839167; -0.00000000000000000005186303506644405; 0.00000000000000000000007865889236910796; -0.00000000000000000000000011424800079456716;
  0.0000027110807237157287; -0.0000000056136974789355076; 0.000000000010704721154203458; -0.000000000000019039901428259896;
  0.00000000000000003188285380725646; -0.00000000000000000005062079943387219; 0.00000000000000000000007663085622719271; -0.00000000000000000000000011110459377393067;
  0.000002677653936575707; -0.000000005528816232713322; 0.000000000010516221022705661; -0.000000000000018661525222030587;
  0.0000000000000000311826710787406; -0.00000000000000000004941056395746383; 0.00000000000000000000007465857290001104; -0.0000000000000000000000001080527754401687;
  0.0000026447319430127248; -0.000000005445427963849892; 0.000000000010331462978975679; -0.000000000000018291450426224707;
  0.00000000000000003049921278830613; -0.00000000000000000004823144965115189; 0.00000000000000000000007274041922037571; -0.00000000000000000000000010508973539976772;
  0.000002612305874312616; -0.0000000053635030650409134; 0.000000000010150365003721906; -0.000000000000017929478937691517;
  0.00000000000000002983204924285247; -0.000000000000000000047082603099024586; 0.00000000000000000000007087482178999639; -0.00000000000000000000000010221275366221559;
  0.0000025803670374523237; -0.0000000052830125772805654; 0.000000000009972847033139858; -0.000000000000017575417738609984;
  0.00000000000000002918076252269556; -0.000000000000000000045963195671900755; 0.00000000000000000000006906025537971589; -0.00000000000000000000000009941919760324036;
  0.0000025489069112566358; -0.0000000052039281744191534; 0.000000000009798830908758401; -0.000000000000017229078757268447;
  0.000000000000000028544946139890284; -0.00000000000000000004487242276906903; 0.00000000000000000000006729524138344695; -0.00000000000000000000000009670651903422319;
  0.0000025179171426463833; -0.000000005126222148116477; 0.000000000009628240328657886; -0.00000000000001689027873288144;
  0.00000000000000002792420470699744; -0.00000000000000000004380950308434669; 0.00000000000000000000006557834632393296; -0.00000000000000000000000009407225137393285;
  0.0000024873895429757596; -0.000000005049867393180086; 0.000000000009461000800020437; -0.0000000000000165588390843203;
  0.000000000000000027318153615960282; -0.000000000000000000042773677895643723; 0.00000000000000000000006390818040852469; -0.00000000000000000000000009151400691887355;
  0.00000245731608445648; -0.000000004974837393277943; 0.00000000000929703959297388; -0.00000000000001623458578263823;
  0.000000000000000026726418726767343; -0.000000000000000000041764210377245707; 0.00000000000000000000006228339613323006; -0.00000000000000000000000008902947420867725;
  0.0000024276888966665675; -0.000000004901106207015285; 0.000000000009136285695691916; -0.000000000000015917349227274254;
  0.000000000000000026148636065588645; -0.00000000000000000004078038493405677; 0.00000000000000000000006070268693335759; -0.00000000000000000000000008661641548310535;
  0.0000023985002631416106; -0.000000004828648454365771; 0.000000000008978669770714346; -0.000000000000015606964125824226;
  0.000000000000000025584451532083096; -0.00000000000000000003982150655707015; 0.00000000000000000000005916478587913409; -0.00000000000000000000000008427266422735305;
  0.0000023697426180463972; -0.000000004757439303447316; 0.000000000008824124112452176; -0.000000000000015303269377270576;
  0.000000000000000025033520615584838; -0.00000000000000000003888690019935937; 0.00000000000000000000005766846441473636; -0.00000000000000000000000008199612280247343;
  0.00000930959226141268; -0.000000037223309597642537; 0.00000000013756669077504875; -0.000000000000475517736515168;
  0.0000000000000015507996164970657; -0.000000000000000004803721154859532; 0.000000000000000000014208059831259007; -0.00000000000000000000004029648434210338;
  0.000009089516331975589; -0.000000036141551317802566; 0.0000000001329032320966631; -0.0000000000004573053689731379;
  0.0000000000000014851120757542015; -0.0000000000000000045820955456680356; 0.000000000000000000013502140296425027; -0.00000000000000000000003815928580816023;
  0.000008875820470581326; -0.000000035096382599837765; 0.00000000012841801711434652; -0.0000000000004398629473542407;
  0.0000000000000014224496480975234; -0.0000000000000000043714624735407994; 0.000000000000000000012833599820912487; -0.0000000000000000000000361420563796824;
  0.00000866828935683038; -0.000000034086407814087884; 0.00000000012410352483912718; -0.0000000000004231550771681088;
  0.0000000000000013626625449465447; -0.0000000000000000041712408190842345; 0.00000000000000000001220034342223635; -0.00000000000000000000003423770801012859;
  0.000008466715866393462; -0.000000033110290106669304; 0.0000000001199525794000174; -0.0000000000004071481134977282;
  0.0000000000000013056088834490824; -0.000000000000000003980881982387507; 0.000000000000000000011600399710726666; -0.00000000000000000000003243959140246832;
  0.000008270900726501584; -0.00000003216674870726717; 0.00000000011595833301365512; -0.00000000000039181006880784015;
  0.0000000000000012511542447604715; -0.00000000000000000379986796739593; 0.000000000000000000011031913250043304; -0.000000000000000000000030741467665410196;
  0.00000808065218718794; -0.00000003125455636955233; 0.00000000011211424984988599; -0.00000000000037711052589644603;
  0.0000000000000011991712583046814; -0.000000000000000003627709584523484; 0.000000000000000000010493137410533483; -0.00000000000000000000002913748187428365;
  0.000007895785707506902; -0.000000030372536937257243; 0.00000000010841409074338135; -0.0000000000003630205556873469;
  0.000000000000001149539210415922; -0.0000000000000000034639447638870502; 0.000000000000000000009982427682357793; -0.000000000000000000000027622138403817664;
  0.000007716123655996147; -0.00000002951956302933228; 0.00000000010485189870431424; -0.0000000000003495126395802425;
  0.0000000000000011021436758623616; -0.0000000000000000033081369720554523; 0.0000000000000000000094982354176128; -0.000000000000000000000026190277909634023;
  0.000007541495024686205; -0.00000002869455383796875; 0.00000000010142198518386235; -0.0000000000003365605960923097;
  0.0000000000000010568761708497026; -0.0000000000000000031598737256814615; 0.000000000000000000009039101972814824; -0.000000000000000000000024837055844134168;
  0.000007371735155998048; -0.00000002789647303361824; 0.00000000009811891705288491; -0.00000000000032413951154146503;
  0.0000000000000010136338261920842; -0.0000000000000000030187651958269627; 0.000000000000000000008603653225092512; -0.000000000000000000000023557922400661638;
  0.000007206685481903502; -0.00000002712432677146137; 0.00000000009493750425454217; -0.00000000000031222567453675584;
  0.0000000000000009723190794215152; -0.0000000000000000028844428972030305; 0.000000000000000000008190594437276722; -0.000000000000000000000022348603787417615;
  0.000007046193274755688; -0.000000026377161794083783; 0.00000000009187278809389867; -0.0000000000003007965140555982;
  0.0000000000000009328393846852272; -0.0000000000000000027565584569297625; 0.000000000000000000007798705448785535; -0.000000000000000000000021205084739640966;
  0.000006890111409227238; -0.000000025654063625404123; 0.00000000008892003012968751; -0.0000000000002898305409009417;
  0.0000000000000008951069393533412; -0.0000000000000000026347824577774955; 0.00000000000000000000742683617078966; -0.00000000000000000000002012359218507955;
  0.000006738298134822962; -0.00000002495415485116927; 0.00000000008607470163541834; -0.00000000000027930729234396;
  0.0000000000000008590384263274234; -0.0000000000000000025188033511833106; 0.000000000000000000007073902365617955; -0.000000000000000000000019100579983815636;
  0.000006590616858460984; -0.00000002427659348158706; 0.00000000008333247359889658; -0.0000000000002692072797695927;
  0.0000000000000008245547711042054; -0.0000000000000000024083264356462638; 0.0000000000000000000067388816917327684; -0.00000000000000000000001813271466910166;
  0.000006446935936642196; -0.000000023620571391906996; 0.00000000008068920723099278; -0.00000000000025951193915325125;
  0.0000000000000007915809127082415; -0.000000000000000002303072896393195; 0.000000000000000000006420809996877672; -0.00000000000000000000001721686212104624;
  0.000006307128476752347; -0.00000002298531283698596; 0.00000000007814094495616568; -0.00000000000025020358420729896;
  0.0000000000000007600455876628996; -0.0000000000000000022027789024757284; 0.000000000000000000006118777843183324; -0.00000000000000000000001635007510979596;
  0.000006171072147064206; -0.00000002237007303608968; 0.0000000000756839018588077; -0.00000000000024126536204556693;
  0.0000000000000007298811262210492; -0.0000000000000000021071947577095944; 0.000000000000000000005831927249116942; -0.00000000000000000000001552958164931366;
  0.00000603864899502913; -0.000000021774136824382152; 0.00000000007331445756095314; -0.00000000000023268121122321746;
  0.000000000000000701023260125406; -0.000000000000000002016084102100946; 0.000000000000000000005559448634183427; -0.000000000000000000000014752774106985755;
  0.000005909745273468071; -0.000000021196817367745302; 0.00000000007102914850827382; -0.00000000000022443582201774998;
  0.0000000000000006734109412139232; -0.0000000000000000019292231606221025; 0.000000000000000000005300577953237081; -0.00000000000000000000001401719901812318;
  0.000005784251274291659; -0.000000020637454937750534; 0.00000000006882466064258786; -0.00000000000021651459882490283;
  0.000000000000000646986170228107; -0.0000000000000000018464000364022542; 0.000000000000000000005054594008147296; -0.000000000000000000000013320547557975915;
  0.000005662061169397569; -0.000000020095415743773022; 0.00000000006669782244033314; -0.00000000000020890362455066894;
  0.0000000000000006216938352218771; -0.0000000000000000017674140455880772; 0.000000000000000000004820815925384392; -0.00000000000000000000001266064662717948;
  0.000005543072858410934; -0.000000019570090819399432; 0.00000000006464559829760847; -0.00000000000020158962688764548;
  0.000000000000000597481559005768; -0.000000000000000001692075091305968; 0.000000000000000000004598600788857368; -0.00000000000000000000001203545050961336;
  0.000005427187822950214; -0.00000001906089496043036; 0.00000000006266508224347047; -0.00000000000019455994637051015;
  0.0000000000000005742995550960608; -0.0000000000000000016202030743225082; 0.00000000000000000000438734141804777; -0.000000000000000000000011443033064492837;
  0.000005314310987116692; -0.000000018567265711921413; 0.00000000006075349196419552; -0.0000000000001878025061115826;
  0.000000000000000552100491670988; -0.0000000000000000015516273381536932; 0.000000000000000000004186464282147119; -0.000000000000000000000010881580417153941;
  0.0000052043505839206914; -0.000000018088662401841015; 0.00000000005890816312217615; -0.00000000000018130578312322123;
  0.0000000000000005308393630666318; -0.0000000000000000014861861465171377; 0.0000000000000000000039954275415226915; -0.000000000000000000000010349384115440884;
  0.00000509721802737177; -0.000000017624565219050242; 0.00000000005712654395402761; -0.00000000000017505878113923816;
  0.0000000000000005104733683736673; -0.0000000000000000014237261911556134; 0.000000000000000000003813719208411391; -0.000000000000000000000009844834720880576;
  0.000004992827789973528; -0.000000017174474333429793; 0.000000000055406190133331805; -0.00000000000016905100485262247;
  0.0000000000000004909617967228168; -0.0000000000000000013641021281855402; 0.0000000000000000000036408554192768704; -0.000000000000000000000009366415805942243;
  0.000004891097285376397; -0.000000016737909056092647; 0.00000000005374475988424902; -0.0000000000001632724354916526;
  0.0000000000000004722659188719043; -0.0000000000000000013071761412410471; 0.000000000000000000003476378811763797; -0.000000000000000000000008912698330643765;
  0.00000479194675595381; -0.00000001631440703772795; 0.00000000005214000933298427; -0.00000000000015771350766098456;
  0.0000000000000004543488847308353; -0.0000000000000000012528175297935154; 0.000000000000000000003319856999647846; -0.000000000000000000000008482335373591031;
  0.00000469529916507857; -0.000000015903523503222964; 0.000000000050589788084807885; -0.00000000000015236508737853186;
  0.0000000000000004371756264827874; -0.0000000000000000012009023211286244; 0.0000000000000000000031708811396129966; -0.00000000000000000000000807405719423258;
  0.000004601080093887067; -0.000000015504830520805676; 0.000000000049092035015001574; -0.0000000000001472184512429292;
  0.00000000000000042071276698047; -0.0000000000000000011513129045583512; 0.000000000000000000003029064584091265; -0.000000000000000000000007686666604688277;
  0.000004509217642329268; -0.000000015117916304040928; 0.000000000047644774262734605; -0.00000000000014226526667010954;
  0.00000000000000040492853311560025; -0.000000000000000001103937686534564; 0.0000000000000000000028940416147762065; -0.000000000000000000000007319034630976725;
  0.000004419642334312149; -0.000000014742384545098693; 0.00000000004624611141747152; -0.0000000000001374975731410354;
  0.00000000000000038979267387781517; -0.0000000000000000010586707654142221; 0.0000000000000000000027654662517722587; -0.000000000000000000000006970096444829115;
  0.000004332287026753463; -0.000000014377853777793944; 0.00000000004489422988807584; -0.0000000000001329077644059291;
  0.00000000000000037527638283619015; -0.0000000000000000010154116247041576; 0.0000000000000000000026430111336690724; -0.000000000000000000000006638847548545257;
  0.000004247086822371542; -0.00000001402395676897407; 0.000000000043587387445305004; -0.00000000000012848857159345138;
  0.00000000000000036135222479242574; -0.000000000000000000974064843686315; 0.000000000000000000002526366464135027; -0.0000000000000000000000063243401965269436;
  0.000004163978986045118; -0.000000013680339936902299; 0.00000000004232391292889257; -0.00000000000012423304717619904;
  0.0000000000000003479940663696701; -0.0000000000000000009345398243925082; 0.000000000000000000002415239020908712; -0.000000000000000000000006025680038221284;
  0.000004082902864585089; -0.000000013346662795354018; 0.000000000041102203110886105; -0.00000000000012013454974663993;
  0.00000000000000033517701031492496; -0.000000000000000000896750533961551; 0.00000000000000000000230935122333266; -0.000000000000000000000005742022968228002;
  0.000004003799809767625; -0.000000013022597422207807; 0.00000000003992071970735502; -0.00000000000011618672956018852;
  0.0000000000000003228773333061028; -0.0000000000000000008606152614712917; 0.0000000000000000000022084402548213873; -0.000000000000000000000005472572170275305;
  0.000003926613104485148; -0.000000012707827951374345; 0.00000000003877798653100314; -0.00000000000011238351480455794;
  0.00000000000000031107242706710947; -0.0000000000000000008260563883939457; 0.000000000000000000002112257236887066; -0.0000000000000000000000052165753426539494;
  0.000003851287891878496; -0.000000012402050086964494; 0.00000000003767258677761805; -0.00000000000010871909855681371;
  0.00000000000000029974074260588183; -0.0000000000000000007930001718753925; 0.0000000000000000000020205664515620274; -0.000000000000000000000004973322093523187;
  0.0000037777711073199675; -0.000000012104970638652855; 0.00000000003660316043966399; -0.00000000000010518792639170968;
  0.00000000000000028886173740115125; -0.0000000000000000007613765400880442; 0.000000000000000000001933144609258861; -0.000000000000000000000004742141495269681;
  0.000003706011413123105; -0.000000011816307077245267; 0.000000000035568401840679115; -0.00000000000010178468460691553;
  0.0000000000000002784158253738885; -0.000000000000000000731118898952717; 0.0000000000000000000018497801592971176; -0.000000000000000000000004522399787815322;
  0.0000036359591358608215; -0.000000011535787109508024; 0.00000000003456705728447206; -0.00000000000009850428903265602;
  0.0000000000000002683843294889423; -0.0000000000000000007021639495678509; 0.0000000000000000000017702726405014212; -0.000000000000000000000004313498221435826;
  0.0000035675662061790157; -0.000000011263148271363398; 0.0000000000335979228134287; -0.00000000000009534187439508098;
  0.0000000000000002587494368413657; -0.0000000000000000006744515157246101; 0.0000000000000000000016944320694400375; -0.000000000000000000000004114871030272477;
  0.0000035007861009980568; -0.000000010998137538600322; 0.000000000032659842070537904; -0.00000000000009229278420438104;
  0.00000000000000024949415609035583; -0.0000000000000000006479243809240559; 0.000000000000000000001622078364026405; -0.000000000000000000000003925983528297705;
  0.0000034355737879994926; -0.000000010740510954291114; 0.00000000003175170426002729; -0.00000000000008935256114025958;
  0.00000000000000024060227711165895; -0.0000000000000000006225281343478568; 0.0000000000000000000015530408003495225; -0.000000000000000000000003746330320034199;
  0.0000033718856723000686; -0.00000001049003327214492; 0.000000000030872442201765805; -0.00000000000008651693790887739;
  0.00000000000000023205833274673584; -0.0000000000000000005982110252670655; 0.0000000000000000000014871575007331314; -0.000000000000000000000003575433618829765;
  0.0000033096795452196594; -0.00000001024647761506623; 0.00000000003002103047484209; -0.00000000000008378182854680365;
  0.00000000000000022384756253398124; -0.0000000000000000005749238254044741; 0.0000000000000000000014242749511489146; -0.0000000000000000000000034128416659587316;
  0.0000032489145350539774; -0.000000010009625148222662; 0.000000000029196483645965205; -0.00000000000008114332014884359;
  0.00000000000000021595587831386877; -0.000000000000000000552619698795111; 0.0000000000000000000013642475462260893; -0.000000000000000000000003258127244257692;
  0.000003189551059767013; -0.0000000097792647659601; 0.00000000002839785457855927; -0.00000000000007859766499787377;
  0.00000000000000020836983160607426; -0.0000000000000000005312540787166755; 0.0000000000000000000013069371602093165; -0.0000000000000000000000031108862804109464;
  0.0000031315507815220225; -0.000000009555192791935382; 0.000000000027624232818636432; -0.00000000000007614127307600331;
  0.00000000000000020107658266244735; -0.0000000000000000005107845512872452; 0.000000000000000000001252212742319314; -0.000000000000000000000002970736530381315;
  0.0000030748765629735745; -0.000000009337212691867385; 0.00000000002687474305373349; -0.00000000000007377070493750042;
  0.00000000000000019406387110516636; -0.0000000000000000004911707453515474; 0.0000000000000000000011999499350664073; -0.0000000000000000000000028373163428367663;
  0.000003019492425246664; -0.00000000912513479833613; 0.000000000026148543641387983; -0.00000000000007148266492498;
  0.00000000000000018731998806455615; -0.0000000000000000004723742282995535; 0.0000000000000000000011500307141569302; -0.000000000000000000000002710283495754473;
  0.0000029653635075322568; -0.000000008918776047087152; 0.000000000025444825203809437; -0.00000000000006927399471134519;
  0.00000000000000018083374973588657; -0.0000000000000000004543584074822381; 0.0000000000000000000011023430487163069; -0.0000000000000000000000025893141016929494;
  0.000002912456028231783; -0.000000008717959724324339; 0.000000000024762809285571825; -0.00000000000006714166715091629;
  0.00000000000000017459447227902034; -0.0000000000000000004370884369091291; 0.0000000000000000000010567805806311886; -0.000000000000000000000002474101577511492;
  0.0000028607372475861507; -0.00000000852251522449925; 0.000000000024101747071314494; -0.00000000000006508278042406812;
  0.00000000000000016859194798906515; -0.0000000000000000004205311289308376; 0.0000000000000000000010132423218865378; -0.0000000000000000000000023643556745855482;
  0.0000028101754317277086; -0.000000008332277818128373; 0.000000000023460918160591344; -0.00000000000006309455246053457;
  0.0000000000000001628164226702144; -0.00000000000000000040465487062719077; 0.0000000000000000000009716323688423915; -0.0000000000000000000000022598015658182415;
  0.0000027607398180963397; -0.000000008147088429192092; 0.000000000022839629397152493; -0.0000000000000611743156273298;
  0.00000000000000015725857414875864; -0.0000000000000000003894295446379464; 0.0000000000000000000009318596324594898; -0.0000000000000000000000021601789859832902;
  0.00000271240058216349; -0.000000007966793421690315; 0.000000000022237213750079388; -0.00000000000005931951166798217;
  0.00000000000000015190949186482205; -0.0000000000000000003748264541884397; 0.0000000000000000000008938375835433249; -0.000000000000000000000002065241422154096;
  0.0000026651288054104034; -0.000000007791244394949811; 0.000000000021653029244323754; -0.0000000000000575276868804822;
  0.00000000000000014676065748574393; -0.0000000000000000003608182520769355; 0.000000000000000000000857484012132712; -0.000000000000000000000001974755351178896;
  0.000002618896444509233; -0.000000007620297987297421; 0.00000000002108645793832354; -0.00000000000005579648752201093;
  0.00000000000000014180392648719432; -0.0000000000000000003473788734040169; 0.0000000000000000000008227208002119636; -0.0000000000000000000000018884995213535783;
  0.000002573676301657936; -0.000000007453815687731437; 0.000000000020536904946484986; -0.00000000000005412365542914469;
  0.00000000000000013703151065109816; -0.00000000000000000033448347183707245; 0.000000000000000000000789473706975386; -0.0000000000000000000000018062642756229153;
  0.00001003074601900355; -0.00000005769736718378944; 0.000000000315891803258636; -0.0000000000016550121643970817;
  0.00000000000000833294546915526; -0.000000000000000040461927798096115; 0.00000000000000000019003474613600625; -0.0000000000000000000008653233213975795;
  0.000009692012791258947; -0.000000055235122295769364; 0.00000000029983053839272356; -0.0000000000015583322037425045;
  0.000000000000007787192349236606; -0.00000000000000003754255051559785; 0.0000000000000000001751266589556152; -0.0000000000000000000007922617698610516;
  0.000009367675167837227; -0.00000005289758604022454; 0.0000000002847041289657462; -0.0000000000014679625866973535;
  0.000000000000007280688869651056; -0.00000000000000003485149033066093; 0.00000000000000000016147360460853466; -0.0000000000000000000007257674032964906;
  0.00000905700683791529; -0.000000050677525833088895; 0.0000000002704517639707415; -0.0000000000013834509469765002;
  0.0000000000000068103748399674754; -0.00000000000000003236958301214598; 0.00000000000000000014896309099724796; -0.0000000000000000000006652157900617664;
  0.000008759323462177794; -0.00000004856817796279746; 0.00000000025701697769464923; -0.0000000000013043800799444368;
  0.000000000000006373446179632181; -0.00000000000000003007937722789047; 0.00000000000000000013749329327241415; -0.0000000000000000000006100449753965801;
  0.000008473979961116623; -0.00000004656321419436391; 0.0000000002443473130004957; -0.0000000000012303650085249495;
  0.0000000000000059673320911658775; -0.00000000000000002796497255646497; 0.0000000000000000001269719893101175; -0.0000000000000000000005597489326102122;
  0.000008200367995853982; -0.000000044656710953400626; 0.0000000002323940126250626; -0.0000000000011610503098893788;
  0.0000000000000055896743862568455; -0.00000000000000002601187362210523; 0.00000000000000000011731560649178254; -0.0000000000000000000005138717307114781;
  0.000007937913626661539; -0.00000004284312087605262; 0.0000000002211117360090371; -0.000000000001096107678394602;
  0.000000000000005238308751023276; -0.00000000000000002420685867128905; 0.00000000000000000010844836763979856; -0.0000000000000000000004720023369409866;
  0.00000768607513557444; -0.00000004111724652973334; 0.0000000002104582994095605; -0.0000000000010352337026706489;
  0.000000000000004911247758951919; -0.000000000000000022537861092492178; 0.00000000000000000010030152534111406; -0.0000000000000000000004337699822932009;
  0.000007444341000617428; -0.00000003947421612669647; 0.0000000002003944372550124; -0.0000000000009781478369345697;
  0.000000000000004606665459839711; -0.000000000000000020993862542985938; 0.00000000000000000009281267510780769; -0.00000000000000000000039884002656687586;
  0.000007212228010180744; -0.00000003790946106802914; 0.0000000001908835828911641; -0.0000000000009245905485591801;
  0.000000000000004322883390742747; -0.000000000000000019564796490568174; 0.00000000000000000008592513889772288; -0.0000000000000000000003669102669056091;
  0.000006989279507014841; -0.00000003641869516976398; 0.00000000018189166703863431; -0.0000000000008743216256768061;
  0.000000000000004058357870713671; -0.000000000000000018241461105988912; 0.00000000000000000007958741146698437; -0.0000000000000000000003377076403146123;
  0.000006775063752163832; -0.00000003499789543562077; 0.00000000017338693243577461; -0.0000000000008271186301706565;
  0.000000000000003811668455197109; -0.000000000000000017015440555424556; 0.00000000000000000007375266286473871; -0.00000000000000000000031098527637778797;
  0.000006569172399934946; -0.000000033643284252528636; 0.00000000016533976328039765; -0.0000000000007827754828190677;
  0.000000000000003581507438541205; -0.00000000000000001587903384332415; 0.00000000000000000006837829112203298; -0.00000000000000000000028651986144869128;
  0.000006371219075712175; -0.000000032351312895660874; 0.00000000015772252820964692; -0.0000000000007411011686275913;
  0.000000000000003366670304337898; -0.00000000000000001482519044575431; 0.0000000000000000000634255198429718; -0.0000000000000000000002641092800353156;
  0.0000061808380490725454; -0.00000003111864623933656; 0.0000000001505094356711476; -0.0000000000007019185515258112;
  0.0000000000000031660470333725535; -0.000000000000000013847452054288149; 0.00000000000000000005885903598734561; -0.00000000000000000000024357050301629445;
  0.000005997682995258672; -0.0000000299421485788997; 0.00000000014367640064158044; -0.0000000000006650632886333453;
  0.000000000000002978614187975169; -0.000000000000000012939899821647609; 0.00000000000000000005464666364872128; -0.00000000000000000000022473769578002667;
  0.00000582142583860627; -0.000000028818870476657904; 0.00000000013720092174207025; -0.0000000000006303828352246719;
  0.000000000000002803427699636083; -0.000000000000000012097106563713916; 0.000000000000000000050759070088354647; -0.00000000000000000000020746052242513368;
  0.000005651755672024717; -0.000000027746036552224232; 0.0000000001310619678842439; -0.0000000000005977355323558751;
  0.000000000000002639616293981281; -0.000000000000000011314093429046288; 0.000000000000000000047169500690094585; -0.0000000000000000000001916026248501276;
  0.000005488377747086495; -0.00000002672103414422395; 0.00000000012523987365736108; -0.0000000000005669897698676573;
  0.000000000000002486375493686788; -0.00000000000000001058629059746976; 0.0000000000000000000438535398607339; -0.0000000000000000000001770402579355384;
  0.0000053310125297012445; -0.000000025741402776362243; 0.00000000011971624273633198; -0.0000000000005380232181564734;
  0.0000000000000023429621457288086; -0.000000000000000009909501614294155; 0.00000000000000000004078889521932944; -0.00000000000000000000016366106412095432;
  0.000005179394816735365; -0.00000002480482436635469; 0.00000000011447385865340802; -0.0000000000005107221227169971;
  0.000000000000002208689424587828; -0.000000000000000009279871006913205; 0.000000000000000000037955202702527696; -0.00000000000000000000015136297253565844;
  0.000005033272909291813; -0.000000023909114121247604; 0.00000000010949660233349384; -0.000000000000484980656011064;
  0.00000000000000208292226771432; -0.000000000000000008693854866440618; 0.000000000000000000035333850464999; -0.00000000000000000000014005320948388334;
  0.0000048924078386896; -0.000000023052212067244826; 0.0000000001047693758449414; -0.0000000000004607003217168165;
  0.0000000000000019650732037776336; -0.000000000000000008148194109142334; 0.000000000000000000032907819678319016; -0.000000000000000000000129647408539641;
  0.000004756572641481032; -0.000000022232175166350875; 0.00000000010027803186485976; -0.0000000000004377894068623835;
  0.0000000000000018545985380082442; -0.000000000000000007639890161140288; 0.00000000000000000003066154053122622; -0.00000000000000000000012006880979397036;
  0.000004625551680119173; -0.000000021447169975973975; 0.0000000000960093084008588; -0.0000000000004161624777558936;
  0.0000000000000017509948623516922; -0.000000000000000007166182835564242; 0.00000000000000000002858076191193724; -0.00000000000000000000011124753893889817;
  0.000004499140006140528; -0.000000020695465811138543; 0.00000000009195076835015322; -0.0000000000003957399159922757;
  0.0000000000000016537958612199832; -0.000000000000000006724530194343654; 0.000000000000000000026652433411595402; -0.00000000000000000000010311995788465157;
  0.000004377142762960232; -0.000000019975428372165144; 0.00000000008809074351245293; -0.00000000000037644749115101017;
  0.0000000000000015625693863885561; -0.0000000000000000063125902074530956; 0.000000000000000000024864598429148704; -0.0000000000000000000000956280795048289;
  0.00000425937462559096; -0.000000019285513803613127; 0.0000000000844182827053875; -0.0000000000003582159671012224;
  0.0000000000000014769147770757836; -0.000000000000000005928204040911193; 0.000000000000000000023206297283932643; -0.0000000000000000000000887190399016273;
  0.000004145659274793815; -0.000000018624263152971708; 0.00000000008092310366065771; -0.00000000000034098073910437415;
  0.0000000000000013964604034855913; -0.000000000000000005569380821414641; 0.000000000000000000021667479354677043; -0.00000000000000000000008234462229154709;
  0.000004035828903351036; -0.000000017990297200050597; 0.00000000007759554840594186; -0.00000000000032468149915309124;
  0.000000000000001320861414117412; -0.00000000000000000523428374036944; 0.000000000000000000020238923364073598; -0.00000000000000000000007646082724153705;
  0.0000039297237523177615; -0.000000017382311630281686; 0.00000000007442654186205586; -0.00000000000030926192720987126;
  0.0000000000000012497976689738094; -0.0000000000000000049212173734428774; 0.000000000000000000018912165017766122; -0.00000000000000000000007102748454538313;
  0.000003827191675264531; -0.000000016799072527216765; 0.00000000007140755340718968; -0.0000000000002946694062137908;
  0.000000000000001182971842444862; -0.000000000000000004628616103763218; 0.000000000000000000017679431286840444; -0.00000000000000000000006600790252826446;
  0.000003728087728664697; -0.00000001623941216140875; 0.00000000006853056118041907; -0.00000000000028085475890889527;
  0.000000000000001120107681137751; -0.000000000000000004355033547683197; 0.000000000000000000016533580694641396; -0.00000000000000000000006136855101084786;
  0.0000036322737867124703; -0.0000000157022250546109; 0.00000000006578801891529839; -0.00000000000026777200471652077;
  0.0000000000000010609484032660612; -0.000000000000000004099132891726143; 0.000000000000000000015468049032957416; -0.0000000000000000000000570787745592809;
  0.0000035396181789788512; -0.000000015186464299832968; 0.00000000006317282511133942; -0.0000000000002553781350269989;
  0.0000000000000010052552274304459; -0.0000000000000000038596780580636905; 0.000000000000000000014476799990111173; -0.00000000000000000000005311053299945535;
  0.0000034499953494249733; -0.0000000146911381192677; 0.00000000006067829436671964; -0.0000000000002436329054254977;
  0.0000000000000009528060197234598; -0.000000000000000003635525623733115; 0.000000000000000000013554280225005958; -0.00000000000000000000004943816648779145;
  0.0000033632855353961685; -0.000000014215306643456766; 0.00000000005829813070977131; -0.0000000000002324986434934797;
  0.0000000000000009033940490880266; -0.0000000000000000034256174258808257; 0.000000000000000000012695378467349934; -0.00000000000000000000004603818271081788;
  0.000003279374465316079; -0.000000013758078896311863; 0.00000000005602640277980328; -0.00000000000022194007094260072;
  0.0000000000000008568268417615838; -0.0000000000000000032289737916971656; 0.000000000000000000011895388265687959; -0.0000000000000000000000428890640357728;
  0.0000031981530738889395; -0.000000013318609971754189; 0.00000000005385752071970502; -0.00000000000021192413894289918;
  0.0000000000000008129251264556816; -0.0000000000000000030446873374585485; 0.000000000000000000011149974042024567; -0.00000000000000000000003997109265767692;
  0.0000031195172337003697; -0.000000012896098388791562; 0.00000000005178621465367853; -0.00000000000020241987560281094;
  0.0000000000000007715218626620533; -0.0000000000000000028719172862803364; 0.000000000000000000010455140145175331; -0.00000000000000000000003726619198778773;
  0.0000030433675021831438; -0.000000012489783612825232; 0.00000000004980751463342542; -0.0000000000001933982446457521;
  0.0000000000000007324613451483985; -0.0000000000000000027098842588653572; 0.000000000000000000009807202624941304; -0.00000000000000000000003475778270665916;
  0.000002969608882984919; -0.000000012098943731874672; 0.00000000004791673194526548; -0.00000000000018483201440753474;
  0.0000000000000006955983783170441; -0.000000000000000002557865495759901; 0.00000000000000000000920276347612152; -0.00000000000000000000003243065206452399;
  0.0000028981506008402724; -0.000000011722893277234786; 0.00000000004610944167905206; -0.00000000000017669563635142794;
  0.0000000000000006607975146532952; -0.000000000000000002415190473447425; 0.000000000000000000008638687125581776; -0.00000000000000000000003027083515444747;
  0.0000028289058891099904; -0.000000011360981178841837; 0.00000000004438146646744537; -0.00000000000016896513236388851;
  0.0000000000000006279323519931067; -0.000000000000000002281236880061194; 0.000000000000000000008112078957368886; -0.000000000000000000000028265507011494717;
  0.0000027617917892067495; -0.000000011012588846327235; 0.00000000004272886131116771; -0.00000000000016161799015444634;
  0.0000000000000005968848847965606; -0.0000000000000000021554269196175166; 0.000000000000000000007620265690452405; -0.000000000000000000000026402884505632802;
  0.0000026967289611785015; -0.000000010677128367387038; 0.000000000041147899412349474; -0.00000000000015463306613845976;
  0.0000000000000005675449050289177; -0.0000000000000000020372239164941036; 0.000000000000000000007160777441316887; -0.000000000000000000000024672137098688558;
  0.0000026336415047692663; -0.000000010354040815693996; 0.00000000003963505894403149; -0.00000000000014799049523193329;
  0.0000000000000005398094486286922; -0.0000000000000000019261291944329688; 0.000000000000000000006731331319519242; -0.000000000000000000000023063305627683607;
  0.0000025724567903220065; -0.0000000100427946611322; 0.00000000003818701068936308; -0.0000000000001416716070337428;
  0.0000000000000005135822838858219; -0.0000000000000000018216792066607197; 0.0000000000000000000063298164186478826; -0.000000000000000000000021567228359403778;
  0.000002513105298930019; -0.000000009742884275645716; 0.00000000003680060648906764; -0.00000000000013565884791283012;
  0.000000000000000488773438365797; -0.00000000000000000172344289581484; 0.00000000000000000000595428007803453; -0.000000000000000000000020175473635141012;
  0.0000024555204712820987; -0.000000009453828528465242; 0.0000000000354728684403758; -0.0000000000001299357085565628;
  0.0000000000000004652987613004559; -0.0000000000000000016310192642640206; 0.000000000000000000005602915302219294; -0.00000000000000000000001888027849107025;
  0.000002399638564682803; -0.000000009175169464913882; 0.00000000003420097879488487; -0.00000000000012448665657182569;
  0.00000000000000044307951862567205; -0.0000000000000000015440351371328924; 0.000000000000000000005274049235684075; -0.000000000000000000000017674492699490916;
  0.000002345398517762734; -0.00000000890647106339767; 0.00000000003298227050672337; -0.00000000000011929707376280663;
  0.00000000000000042204201808269475; -0.0000000000000000014621431019039277; 0.000000000000000000004966132599863242; -0.00000000000000000000001655152772988473;
  0.0000022927418224249564; -0.000000008647318065560727; 0.00000000003181421838600902; -0.00000000000011435319773912325;
  0.00000000000000040211726201560545; -0.0000000000000000013850196098872456; 0.000000000000000000004677730008017068; -0.00000000000000000000001550531017705261;
  0.000002241612402602758; -0.0000000083973148749316; 0.00000000003069443081591423; -0.00000000000010964206753515052;
  0.000000000000000383240625694121; -0.0000000000000000013123632261365465; 0.0000000000000000000044075110813047175; -0.00000000000000000000001453023924705924;
  0.0000021919564994310214; -0.000000008156084519708335; 0.000000000029620641994717953; -0.00000000000010515147294636304;
  0.00000000000000036535155917056426; -0.0000000000000000012438930155589135; 0.000000000000000000004154242296402307; -0.000000000000000000000013621147930838247;
  0.000002143722562458669; -0.000000007923267675627421; 0.00000000002859070466704844; -0.00000000000010086990731140221;
  0.00000000000000034839331084379523; -0.0000000000000000011793470540290504; 0.000000000000000000003916779501351654; -0.000000000000000000000012773267530544265;
  0.000002096861146553162; -0.000000007698521745137464; 0.000000000027602583311127785; -0.00000000000009678652348959214;
  0.00000000000000033231267105267722; -0.0000000000000000011184810542848164; 0.00000000000000000000369406104206323; -0.000000000000000000000011982195235481588;
  0.000002051324814169912; -0.000000007481519989354296; 0.000000000026654347751234128; -0.00000000000009289109280292428;
  0.0000000000000003170597341585273; -0.000000000000000001061067097259835; 0.000000000000000000003485101447092003; -0.000000000000000000000011243864473051941;
  0.0000020070680426798843; -0.00000000727195070951141; 0.00000000002574416716681721; -0.00000000000008917396672925481;
  0.00000000000000030258767770113234; -0.0000000000000000010068924603087303; 0.0000000000000000000032889856230107424; -0.000000000000000000000010554517785966022;
  0.0000019640471364677376; -0.000000007069516474839908; 0.000000000024870304471753028; -0.00000000000008562604114974744;
  0.0000000000000002888525573273588; -0.0000000000000000009557585345086242; 0.0000000000000000000031048635169699393; -0.000000000000000000000009910682010242074;
  0.0000019222201435305907; -0.00000000687393339401651; 0.00000000002403111103911706; -0.00000000000008223872296856807;
  0.00000000000000027581311629609987; -0.0000000000000000009074798238836212; 0.000000000000000000002931945206899785; -0.000000000000000000000009309145549525562;
  0.0000018815467763241258; -0.000000006684930427508097; 0.00000000002322502174860564; -0.00000000000007900389893660935;
  0.00000000000000026343060845915385; -0.0000000000000000008618830200031715; 0.0000000000000000000027694963833164545; -0.000000000000000000000008746937560236773;
  0.0000018419883366182124; -0.000000006502248738317648; 0.00000000002245055033535306; -0.00000000000007591390652369387;
  0.00000000000000025166863370540215; -0.0000000000000000008188061459558955; 0.0000000000000000000026168341898769904; -0.000000000000000000000008221308879192993;
  0.000007138640930353988; -0.00000004991632616817315; 0.000000000341520925126809; -0.000000000002289112041725979;
  0.000000000000015047354020107326; -0.00000000000000009709915279009084; 0.0000000000000000006156807916276055; -0.00000000000000000000383821295121939;
  0.00000684715989378477; -0.00000004727336896479283; 0.00000000031950613251804464; -0.000000000002116431876926672;
  0.00000000000001375441291352181; -0.00000000000000008778007165303583; 0.0000000000000000005506484108287153; -0.000000000000000000003397162459918477;
  0.000006571021755668437; -0.00000004479982466178032; 0.0000000002991431033455543; -0.000000000001958512467509583;
  0.000000000000012584943039507989; -0.00000000000000007944057917248742; 0.0000000000000000004930541645524229; -0.0000000000000000000030104931307196074;
  0.0000063092485290527175; -0.000000042483050361992275; 0.0000000002802913721600567; -0.00000000000181395121890126;
  0.000000000000011526027824590913; -0.00000000000000007196915622659394; 0.0000000000000000004419850574139732; -0.0000000000000000000026710625819997995;
  0.00000606093482237834; -0.00000004031147279389596; 0.00000000026282375469464106; -0.0000000000016814915627861153;
  0.000000000000010566214348148969; -0.00000000000000006526791047989296; 0.00000000000000000039664748492262015; -0.000000000000000000002372721652214843;
  0.000005825241729133978; -0.00000003827448767639847; 0.0000000002466249717356536; -0.0000000000015600064863846424;
  0.000000000000009695335295098086; -0.0000000000000000592508021999737; 0.0000000000000000003563507009068971; -0.0000000000000000000021101689057679074;
  0.000005601391289571209; -0.000000036362369461402855; 0.0000000002315904274967925; -0.0000000000014484840563894367;
  0.000000000000008904353989668868; -0.000000000000000053842114714607244; 0.0000000000000000003204926968539352; -0.0000000000000000000018788274931137683;
  0.000005388661465767003; -0.0000000345661902942916; 0.00000000021762512386881125; -0.0000000000013460146800989217;
  0.000000000000008185229341001378; -0.000000000000000048975133965532587; 0.0000000000000000002885481240592918; -0.0000000000000000000016747407761531126;
  0.000005186381577852878; -0.00000003287774717174824; 0.00000000020464269431123128; -0.0000000000012517798814926487;
  0.000000000000007530797989870788; -0.00000000000000004459100703278466; 0.00000000000000000026005794851399525; -0.0000000000000000000014944837301175887;
  0.000004993928154980896; -0.000000031289496397723595; 0.0000000001925645432204807; -0.0000000000011650424001227568;
  0.000000000000006934671334822874; -0.00000000000000004063775405806758; 0.00000000000000000023462057765179745; -0.0000000000000000000013350876290619224;
  0.000004810721159666727; -0.000000029794494544350585; 0.0000000001813190783977078; -0.0000000000010851374465208227;
  0.000000000000006391145446389896; -0.00000000000000003706941183044826; 0.00000000000000000021188423914360719; -0.0000000000000000000011939759325183039;
  0.000004636220548624952; -0.00000002838634521728022; 0.00000000017084102578889243; -0.0000000000010114649699837991;
  0.000000000000005895122159097061; -0.00000000000000003384529053111867; 0.00000000000000000019154042625433499; -0.0000000000000000000010689096310963272;
  0.000004469923137166245; -0.000000027059151006028723; 0.0000000001610708170136045; -0.0000000000009434828136516357;
  0.000000000000005442039870366095; -0.000000000000000030929327864409884; 0.00000000000000000017331825301795121; -0.0000000000000000000009579405912760905;
  0.000004311359737724577; -0.00000002580747007101797; 0.00000000015195404136562596; -0.0000000000008807006481823447;
  0.000000000000005027812779629662; -0.000000000000000028289527111212736; 0.00000000000000000015697958658468264; -0.0000000000000000000008593716745080875;
  0.000004160092546181275; -0.000000024626276881373566; 0.00000000014344095498321985; -0.0000000000008226745894565705;
  0.000000000000004648777475399395; -0.000000000000000025897467596294096; 0.00000000000000000014231484432942855; -0.0000000000000000000007717226013164927;
  0.000004015712752400471; -0.000000023510926672348222; 0.00000000013548604077007455; -0.000000000000769002417932446;
  0.000000000000004301645927224846; -0.000000000000000023727877719173243; 0.00000000000000000012913936032645162; -0.0000000000000000000006937006942150974;
  0.0000038778383538295655; -0.000000022457123239440303; 0.0000000001280476134178145; -0.0000000000007193193278018715;
  0.000000000000003983464067261271; -0.00000000000000002175826210633961; 0.00000000000000000011729024012472003; -0.0000000000000000000006241757694779214;
  0.0000037461121531858826; -0.000000021460889728722218; 0.0000000001210874645528162; -0.0000000000006732941432084913;
  0.000000000000003691575255748038; -0.00000000000000001996857563998857; 0.00000000000000000010662363484211165; -0.0000000000000000000005621585617539119;
  0.0000036201999231790385; -0.000000020518542120310726; 0.00000000011457054361707731; -0.0000000000006306259466771408;
  0.0000000000000034235880187996247; -0.00000000000000001834093813802604; 0.00000000000000000009701237580105491; -0.0000000000000000000005067821609590116;
  0.0000034997887229357934; -0.000000019626665134933818; 0.00000000010846467060637262; -0.0000000000005910410717461138;
  0.000000000000003177347527818528; -0.000000000000000016859384329402873; 0.00000000000000000008834391955719764; -0.0000000000000000000004572860209367845;
  0.000003384585352325126; -0.00000001878209032272447; 0.00000000010274027723862074; -0.0000000000005542904177335866;
  0.0000000000000029509103594911303; -0.000000000000000015509644510999627; 0.00000000000000000008051856047942247; -0.00000000000000000000041300216662460344;
  0.0000032743149317474936; -0.00000001798187611917687; 0.000000000097370173519655; -0.0000000000005201470497329065;
  0.000000000000002742522135363961; -0.00000000000000001427895190670544; 0.00000000000000000007344787423483486; -0.00000000000000000000037334328302419236;
  0.000003168719596172694; -0.00000001722328967604876; 0.00000000009232933701965927; -0.0000000000004884040514250189;
  0.000000000000002550597691809547; -0.000000000000000013155873292350302; 0.00000000000000000006705336079220477; -0.0000000000000000000003377924169151343;
  0.0000030675572933020736; -0.000000016503790295245165; 0.00000000008759472247762351; -0.0000000000004588726022114693;
  0.000000000000002373703475958879; -0.000000000000000012130159915510478; 0.00000000000000000006126526002878812; -0.00000000000000000000030589406242892713;
  0.000002970600676707644; -0.000000015821014311686993; 0.00000000008314508961867636; -0.0000000000004313802535865466;
  0.000000000000002210541901905124; -0.000000000000000011192616138510785; 0.00000000000000000005602151683153419; -0.0000000000000000000002772464355325402;
  0.0000028776360856758244; -0.000000015172761287127152; 0.00000000007896084730472003; -0.00000000000040576938264942273;
  0.0000000000000020599374350248635; -0.00000000000000001033498357598927; 0.000000000000000000051266875827503924; -0.00000000000000000000025149477116309006;
  0.000002788462604268358; -0.000000014556981391065283; 0.00000000007502391234645723; -0.00000000000038189580326435794;
  0.0000000000000019208242013469677; -0.000000000000000009549838793451924; 0.00000000000000000004695208864639164; -0.00000000000000000000022832550104929572;
  0.0000027028911928174306; -0.00000001397176385753927; 0.00000000007131758148815763; -0.0000000000003596275176588414;
  0.0000000000000017922349441464235; -0.000000000000000008830502887339324; 0.00000000000000000004303321898304243; -0.0000000000000000000002074611908512863;
  0.0000026207438857049533; -0.000000013415326417820089; 0.00000000006782641523839798; -0.00000000000033884359324869306;
  0.0000000000000016732911718819117; -0.000000000000000008170961486198369; 0.00000000000000000003947103275093751; -0.0000000000000000000001886561327329956;
  0.000002541853049845159; -0.000000012886005619066342; 0.00000000006453613236316154; -0.0000000000003194331512325423;
  0.0000000000000015631943606856306; -0.000000000000000007565793901646174; 0.00000000000000000003623046235028858; -0.00000000000000000000017169250433979524;
  0.000002466060698801951; -0.000000012382247947946622; 0.00000000006143351398439498; -0.00000000000030129445503755135;
  0.0000000000000014612180912406947; -0.000000000000000007010110321218219; 0.000000000000000000033280135560085104; -0.00000000000000000000015637701779756793;
  0.000002393217857933964; -0.000000011902601686235026; 0.00000000005850631633939235; -0.0000000000002843340880512622;
  0.0000000000000013667010143787988; -0.0000000000000000064994960765577864; 0.00000000000000000003059196083886516; -0.00000000000000000000014253799312127616;
  0.0000023231839763764057; -0.000000011445709432535878; 0.000000000055743191355948594; -0.00000000000026846621126481735;
  0.0000000000000012790405523849609; -0.00000000000000000602996214283734; 0.000000000000000000028140761915156075; -0.00000000000000000000013002279960927293;
  0.0000022558263820442637; -0.000000011010301230693677; 0.000000000053133614286619963; -0.0000000000002536118925011353;
  0.0000000000000011976872540530003; -0.0000000000000000055979011314563825; 0.000000000000000000025903955491719762; -0.000000000000000000000118695616646201;
  0.0000021910197761806086; -0.00000001059518825117719; 0.00000000005066781772397615; -0.00000000000023969849982578096;
  0.0000000000000011221397312066753; -0.00000000000000000520004813019867; 0.000000000000000000023861266700204488; -0.00000000000000000000010843547204602515;
  0.000002128645764280301; -0.000000010199256976866695; 0.000000000048336731388588744; -0.00000000000022665915255376414;
  0.0000000000000010519401128693447; -0.00000000000000000483344582509059; 0.000000000000000000021994477643443275; -0.0000000000000000000000991345218091492;
  0.0000020685924204967344; -0.000000009821463849285833; 0.000000000046131927143692944; -0.00000000000021443222398579872;
  0.0000000000000009866699606869049; -0.000000000000000004495413407838811; 0.000000000000000000020287204967504178; -0.00000000000000000000009069654008844973;
  0.0000020107538828903617; -0.000000009460830335462123; 0.000000000044045568745874846; -0.00000000000020296089064438067;
  0.0000000000000009259465957202665; -0.000000000000000004183518833359118; 0.00000000000000000001872470292834568; -0.00000000000000000000008303559238066745;
  0.0000019550299771052715; -0.000000009116438379323947; 0.000000000042070365890558125; -0.00000000000019219272334359745;
  0.0000000000000008694197924420833; -0.000000000000000003895554044757604; 0.000000000000000000017293688870192546; -0.00000000000000000000007607486858531715;
  0.0000019013258662664136; -0.000000008787426204891828; 0.00000000004019953215517855; -0.00000000000018207931592575856;
  0.0000000000000008167688007993106; -0.00000000000000000362951282923637; 0.000000000000000000015982188424440653; -0.00000000000000000000006974565569062404;
  0.0000018495517250773133; -0.000000008472984441538121; 0.000000000038426746482346986; -0.00000000000017257594794049475;
  0.00000000000000076769966162631455; -0.00000000000000000338357100866796; 0.000000000000000000014779398077488562; -0.00000000000000000000006398643252914419;
  0.0000017996224362681765; -0.000000008172352544307232; 0.00000000003674611788054257; -0.00000000000016364127793469156;
  0.0000000000000007219427845888879; -0.0000000000000000031560687037900666; 0.0000000000000000000136755630506129; -0.0000000000000000000000587420713576223;
  0.0000017514573076988593; -0.000000007884815484739722; 0.000000000035152153051415497; -0.00000000000015523706437042046;
  0.0000000000000006792507612737618; -0.0000000000000000029454944417816687; 0.000000000000000000012661868691042501; -0.00000000000000000000005396313300974768;
  0.0000017049798085617586; -0.000000007609700689855888; 0.000000000033639726681027017; -0.00000000000014732791149809765;
  0.0000000000000006393963890684796; -0.0000000000000000027504709039689067; 0.000000000000000000011730343796042665; -0.0000000000000000000000496052440922652;
  0.0000016601173232576588; -0.0000000073463752089527194; 0.000000000032204054157675375; -0.00000000000013988103778797268;
  0.0000000000000006021708841527817; -0.0000000000000000025697421340705017; 0.000000000000000000010873774485640274; -0.00000000000000000000004562854618309499;
  0.0000016168009216341261; -0.000000007094243089674422; 0.00000000003084066650167382; -0.0000000000001328660647687104;
  0.0000000000000005673822642883992; -0.000000000000000002402162048157651; 0.000000000000000000010085627408502246; -0.000000000000000000000041997208277715054;
  0.00000157496514438231; -0.0000000068527429464507104; 0.00000000002954538731284332; -0.00000000000012625482434077272;
  0.0000000000000005348538841872798; -0.0000000000000000022466841057435567; 0.000000000000000000009359981212775321; -0.00000000000000000000003867899484522079;
  0.000001534547802484923; -0.000000006621345705876374; 0.00000000002831431155981055; -0.00000000000012002118282760092;
  0.00000000000000050442310809180015; -0.0000000000000000021023520174547744; 0.000000000000000000008691465342285889; -0.00000000000000000000003564488282224678;
  0.0000014954897896966514; -0.000000006399552514945792; 0.00000000002714378605168379; -0.00000000000011414088020194269;
  0.0000000000000004759401058432958; -0.00000000000000000196829137884927; 0.000000000000000000008075205330865896; -0.000000000000000000000032868721711886175;
  0.0000014577349071190546; -0.0000000061868927992711455; 0.00000000002603039144751219; -0.00000000000010859138308043354;
  0.0000000000000004492667601724936; -0.0000000000000000018437021323764777; 0.00000000000000000000750677386585299; -0.00000000000000000000003032693168347624;
  0.0000014212296990058895; -0.000000005982922459515425; 0.000000000024970925672293718; -0.00000000000010335175021882513;
  0.00000000000000042427567423917684; -0.0000000000000000017278517704329518; 0.000000000000000000006982146977854786; -0.00000000000000000000002799823520272029;
  0.0000013859232990023438; -0.0000000057872221952722555; 0.000000000023962388620338368; -0.00000000000009840250936489046;
  0.00000000000000040084926959797763; -0.0000000000000000016200692021361632; 0.000000000000000000006497664789261419; -0.000000000000000000000025863418273026585;
  0.0000013517672860835126; -0.000000005599395946533891; 0.000000000023001968037654515; -0.00000000000009372554443766137;
  0.0000000000000003788789657894697; -0.0000000000000000015197392149776827; 0.0000000000000000000060499963201142704; -0.00000000000000000000002390511784927356;
  0.0000013187155495140772; -0.000000005419069443715508; 0.000000000022087026484830565; -0.00000000000008930399210169848;
  0.00000000000000035826443366556414; -0.0000000000000000014262974700639344; 0.000000000000000000005636107907983515; -0.000000000000000000000022107632404007697;
  0.0000012867241622030428; -0.000000005245888857956149; 0.000000000021215089290740108; -0.00000000000008512214689482989;
  0.00000000000000033891291536861585; -0.0000000000000000013392259763287086; 0.000000000000000000005253234849504495; -0.000000000000000000000020456752991561056;
  0.000001255751261874992; -0.000000005079519544101438; 0.00000000002038383341540458; -0.00000000000008116537414834502;
  0.000000000000000320738604606056; -0.0000000000000000012580489950121064; 0.000000000000000000004898855916067596; -0.000000000000000000000018939612474815132;
  0.0000012257569395229693; -0.000000004919644869397124; 0.000000000019591077147589266; -0.00000000000007742003001098779;
  0.0000000000000003036620815068473; -0.0000000000000000011823293309376164; 0.000000000000000000004570670435624174; -0.000000000000000000000017544550858435342;
  0.0000011967031346482123; -0.000000004765965121491192; 0.00000000001883477056926407; -0.0000000000000738733879531406;
  0.0000000000000002876097969214572; -0.0000000000000000011116649717631087; 0.000000000000000000004266577667336398; -0.000000000000000000000016260994916618816;
  0.000001168553536828775; -0.0000000046181964898611324; 0.000000000018112986724998828; -0.0000000000000705135711861078;
  0.00000000000000027251360154115915; -0.0000000000000000010456860405030897; 0.00000000000000000000398465822644745; -0.000000000000000000000015079350517281807;
  0.000001141273493192948; -0.000000004476070115256473; 0.000000000017423913439745838; -0.0000000000000673294904840879;
  0.0000000000000002583103156721815; -0.0000000000000000009840520302802966; 0.000000000000000000003723157343790218; -0.000000000000000000000013990906232091863;
  0.000001114829921404525; -0.000000004339331202179254; 0.00000000001676584573334508; -0.00000000000006431078694388423;
  0.0000000000000002449413359115857; -0.0000000000000000009264492935186828; 0.00000000000000000000348046976823146; -0.000000000000000000000012987746986222684;
  0.0000010891912277956184; -0.000000004207738189820411; 0.000000000016137178784519268; -0.0000000000000614477792601901;
  0.0000000000000002323522753401306; -0.0000000000000000008725887606844827; 0.000000000000000000003255126141451249; -0.000000000000000000000012062676646121595;
  0.0000010643272303091279; -0.0000000040810619772315015; 0.000000000015536401401151496; -0.00000000000005873141513288461;
  0.00000000000000022049263417750015; -0.0000000000000000008222038662590149; 0.0000000000000000000030457806931220967; -0.0000000000000000000000112091485704826;
  0.0000010402090859372738; -0.000000003959085198842082; 0.000000000014962089957296388; -0.0000000000000561532264576226;
  0.0000000000000002093154981413194; -0.0000000000000000007750486619227529; 0.000000000000000000002851200121073107; -0.000000000000000000000010421203261226719;
  0.000004021481444219559; -0.00000003027586430768197; 0.00000000022635732134493037; -0.0000000000016808903971734079;
  0.00000000000001239903650845787; -0.00000000000000009086459269341193; 0.0000000000000000006617197348151865; -0.000000000000000000004787969243997167;
  0.000003845127278725711; -0.000000028530307230711684; 0.00000000021026763965331288; -0.0000000000015394475564563467;
  0.000000000000011197929292635194; -0.00000000000000008093616992454205; 0.0000000000000000005814198905394461; -0.000000000000000000004150548630264609;
  0.000003678871337025515; -0.00000002690799665140694; 0.00000000019552301247735543; -0.0000000000014116187373788476;
  0.000000000000010127240044096646; -0.00000000000000007220513623662063; 0.0000000000000000005117461039638744; -0.000000000000000000003604768918575171;
  0.0000035220053628339155; -0.00000002539869647961373; 0.00000000018199480094936368; -0.0000000000012959349241452184;
  0.000000000000009171336126317837; -0.00000000000000006451399427228; 0.0000000000000000004511796387496062; -0.0000000000000000000031365135006853506;
  0.000003373879542946567; -0.00000002399314339115814; 0.00000000016956816085529856; -0.0000000000011911021156017458;
  0.000000000000008316628879368109; -0.00000000000000005772762494970414; 0.00000000000000000039843437011127264; -0.0000000000000000000027339805285540102;
  0.0000032338969881903933; -0.00000002268294315629371; 0.00000000015814040911245407; -0.0000000000010959785776017406;
  0.000000000000007551284886218935; -0.000000000000000051729879631455397; 0.00000000000000000035241885570424466; -0.0000000000000000000023872811115481352;
  0.0000031015087989516633; -0.00000002146047917077689; 0.00000000014761960131275337; -0.0000000000010095552901263595;
  0.0000000000000068649809586777425; -0.00000000000000004642072485211542; 0.00000000000000000031220495438763474; -0.0000000000000000000020881109980718842;
  0.0000029762096468859486; -0.0000000203188316221387; 0.00000000013792329085961232; -0.0000000000009309391081501112;
  0.000000000000006248695793407254; -0.00000000000000004171384473689078; 0.0000000000000000002770018017417367; -0.0000000000000000000018294816397662448;
  0.0000028575338131484242; -0.000000019251705941333755; 0.00000000012897744463874143; -0.0000000000008593382323717922;
  0.000000000000005694532452247609; -0.00000000000000003753462340813073; 0.00000000000000000024613417860269347; -0.0000000000000000000016054993659035076;
  0.0000027450516310114317; -0.000000018253369375162992; 0.00000000012071549387202497; -0.0000000000007940496499637812;
  0.0000000000000051955668081714535; -0.00000000000000003381844358196539; 0.00000000000000000021902449087120466; -0.0000000000000000000014111836333478957;
  0.0000026383662872374786; -0.00000001731859467282253; 0.00000000011307750192758957; -0.000000000000734448258770317;
  0.0000000000000047457179095970795; -0.0000000000000000305092488503142; 0.0000000000000000001951777249008579; -0.0000000000000000000012423170920952822;
  0.0000025371109422002766; -0.00000001644261001490267; 0.00000000010600943349604993; -0.0000000000006799774328129557;
  0.000000000000004339636884301476; -0.000000000000000027558326337637125; 0.0000000000000000001741688602771078; -0.0000000000000000000010953216175763234;
  0.00000244094613362091; -0.000000015621054428712712; 0.00000000009946251177318077; -0.0000000000006301408240891882;
  0.0000000000000039726115562334726; -0.000000000000000024923273925134657; 0.00000000000000000015563231657722146; -0.0000000000000000000009671555860141486;
  0.0000023495574330180752; -0.000000014849938032917671; 0.00000000009339265217937345; -0.0000000000005844952267432745;
  0.00000000000000364048440543495; -0.00000000000000002256712237301155; 0.00000000000000000013925308733899936; -0.0000000000000000000008552285684777375;
  0.0000022626533276515235; -0.00000001412560653963641; 0.00000000008775996275119126; -0.0000000000005426443557815431;
  0.000000000000003339581880263456; -0.00000000000000002045758770395981; 0.00000000000000000012475927658429067; -0.0000000000000000000007573303399836575;
  0.000002179963303943535; -0.000000013444709515460309; 0.00000000008252830270575811; -0.000000000000504233414446066;
  0.0000000000000030666533861354458; -0.000000000000000018566433346568987; 0.00000000000000000011191580371230577; -0.0000000000000000000006715716789866612;
  0.000002101236111160212; -0.00000001280417196606736; 0.00000000007766489184251771; -0.0000000000004689443428478797;
  0.0000000000000028188185374193924; -0.000000000000000016868924943327933; 0.00000000000000000010051908367727683; -0.0000000000000000000005963348988623494;
  0.000002026238186578539; -0.00000001220116886371117; 0.00000000007313996444066446; -0.0000000000004364916560678568;
  0.000000000000002593521478139142; -0.000000000000000015343363539029793; 0.00000000000000000009039252291062481; -0.0000000000000000000005302324293627741;
  0.0000019547522255043392; -0.000000011633102284109675; 0.0000000000689264621606339; -0.0000000000004066187931337258;
  0.000000000000002388491260338852; -0.000000000000000013970685190527866; 0.0000000000000000000813826988888276; -0.00000000000000000000047207207055459315;
  0.0000018865758813813697; -0.000000011097580860202916; 0.00000000006499976118649217; -0.0000000000003790949094674607;
  0.0000000000000022017074224780855; -0.000000000000000012734116965933817; 0.00000000000000000007335611374452962; -0.0000000000000000000004208277887077567;
  0.0000018215205828778575; -0.00000001059240129579009; 0.00000000006133742947135467; -0.0000000000003537120548930506;
  0.000000000000002031370039123969; -0.000000000000000011618880901876791; 0.00000000000000000006619643080053156; -0.0000000000000000000003756151243227182;
  0.0000017594104562838677; -0.000000010115531712954622; 0.000000000057919010485602527; -0.0000000000003302826873702305;
  0.0000000000000018758736216395137; -0.000000000000000010611938819358873; 0.00000000000000000005980211812227688; -0.00000000000000000000033567044598123444;
  0.0000017000813428268832; -0.000000009665096634089983; 0.00000000005472583033069718; -0.00000000000030863747949951957;
  0.0000000000000017337843409517096; -0.00000000000000000970177200929561; 0.00000000000000000005408443573723259; -0.00000000000000000000030033341716949843;
  0.0000016433799016361182; -0.000000009239363422799671; 0.000000000051740825480813535; -0.00000000000028862338071498486;
  0.0000000000000016038201206399649; -0.000000000000000008878190726584601; 0.000000000000000000048965713546136965; -0.00000000000000000000026903215239954862;
  0.0000015891627900776046; -0.000000008836730028433271; 0.00000000004894838875960245; -0.000000000000270101903099837;
  0.0000000000000014848332138458824; -0.000000000000000008132169208045381; 0.00000000000000000004437787554567858; -0.00000000000000000000024127062844994284;
  0.0000015372959140585637; -0.00000000845571389693892; 0.00000000004633423145800349; -0.0000000000002529476030570737;
  0.0000000000000013757949327998; -0.000000000000000007455702580676633; 0.000000000000000000040261173114591964; -0.0000000000000000000002166179900567932;
  0.0000014876537416753876; -0.000000008094941926405462; 0.00000000004388525975781216; -0.00000000000023704673475260585;
  0.0000000000000012757822466900946; -0.000000000000000006841682573618638; 0.00000000000000000003656309604541025; -0.0000000000000000000001946994498868412;
  0.000001440118674267122; -0.000000007753141359430418; 0.00000000004158946385030492; -0.0000000000002222960544137574;
  0.0000000000000011839660034998726; -0.000000000000000006283789407467425; 0.000000000000000000033237434944019765; -0.0000000000000000000001751885325150188;
  0.0000013945804695464889; -0.000000007429131516536516; 0.0000000000394358183344409; -0.000000000000208601757289248;
  0.0000000000000010996005654118162; -0.000000000000000005776397622573547; 0.00000000000000000003024347274163206; -0.0000000000000000000001578004533494359;
  0.0000013509357120225847; -0.000000007121816285488009; 0.0000000000374141926490769; -0.0000000000001958785314230974;
  0.0000000000000010220146763614802; -0.000000000000000005314493935579269; 0.000000000000000000027545286510266185; -0.00000000000000000000014228645756784698;
  0.0000013090873264116136; -0.000000006830177290716639; 0.00000000003551527044173699; -0.00000000000018404871441950858;
  0.0000000000000009506034050761583; -0.000000000000000004893605490558185; 0.000000000000000000025111143659242323; -0.00000000000000000000012842897242630625;
  0.0000012689441301614883; -0.00000000655326767531804; 0.00000000003373047690574834; -0.0000000000001730415411253614;
  0.0000000000000008848210281187793; -0.000000000000000004509737105893382; 0.000000000000000000022912979011722045; -0.00000000000000000000011603744980973622;
  0.000001230420421599061; -0.000000006290206435362833; 0.00000000003205191323053624; -0.00000000000016279247167101788;
  0.0000000000000008241747356078658; -0.000000000000000004159316317253473; 0.000000000000000000020925941295309788; -0.00000000000000000000010494479546035287;
  0.0000011934356005505787; -0.000000006040173252704101; 0.000000000030472297408748515; -0.00000000000015324259062225266;
  0.0000000000000007682190578623295; -0.0000000000000000038391451863505296; 0.00000000000000000001912799929371332; -0.00000000000000000000009500429763306834;
  0.0000011579138185914254; -0.000000005802403778159378; 0.00000000002898491073052389; -0.0000000000001443380691347875;
  0.0000000000000007165509246084083; -0.0000000000000000035463579893008155; 0.00000000000000000001749959935075708; -0.00000000000000000000008608698155134732;
  0.0000011237836563545059; -0.000000005576185321992113; 0.000000000027583549371241506; -0.00000000000013602968299240163;
  0.0000000000000006688052799096197; -0.0000000000000000032783840212923465; 0.000000000000000000016023367137754637; -0.00000000000000000000007807932743492063;
  0.0000010909778255713736; -0.000000005360852913093959; 0.0000000000262624805458749; -0.00000000000012827238027059443;
  0.0000000000000006246511859130627; -0.0000000000000000030329148591836494; 0.000000000000000000014683847626923665; -0.0000000000000000000000708812994219047;
  0.0000010594328937396442; -0.000000005155785692244306; 0.00000000002501640276181713; -0.00000000000012102489311796562;
  0.0000000000000005837883570783518; -0.000000000000000002807875513373343; 0.000000000000000000013467278087510943; -0.00000000000000000000006440464072451035;
  0.0000010290890295071647; -0.000000004960403608357227; 0.000000000023840409753775822; -0.00000000000011424938880194825;
  0.0000000000000005459440739651034; -0.000000000000000002601398977104809; 0.000000000000000000012361389662818432; -0.00000000000000000000005857139709696222;
  0.0000009998897670403291; -0.000000004774164389770995; 0.000000000022729957729947974; -0.0000000000001079111557372211;
  0.0000000000000005108704320676879; -0.000000000000000002411803747249891; 0.000000000000000000011355233716402517; -0.00000000000000000000005331263636888689;
  0.0000009717817878030392; -0.000000004596560765437221; 0.00000000002168083559894542; -0.00000000000010197832071512636;
  0.000000000000000478341886743329; -0.000000000000000002237573947188495; 0.000000000000000000010439029671893773; -0.000000000000000000000048567336582889886;
  0.0000009447147183160211; -0.000000004427117913365736; 0.000000000020689137882521436; -0.00000000000009642159399025045;
  0.0000000000000004481530601019423; -0.0000000000000000020773417310485344; 0.000000000000000000009604031527810038; -0.000000000000000000000044281419316791167;
  0.0000009186409425952566; -0.000000004265391115912376; 0.000000000019751240050626027; -0.00000000000009121403926418069;
  0.0000000000000004201167799159032; -0.0000000000000000019298716904596415; 0.000000000000000000008842410618678588; -0.0000000000000000000000404069081897119;
  0.0000008935154280846703; -0.000000004110963603490948; 0.0000000000188637760431964; -0.00000000000008633086594337761;
  0.00000000000000039406232425275226; -0.000000000000000001794047021091183; 0.000000000000000000008147152527028557; -0.00000000000000000000003690119544718964;
  0.0000008692955640032749; -0.000000003963444570074459; 0.00000000001802361776780746; -0.0000000000000817492413441825;
  0.0000000000000003698338487084666; -0.0000000000000000016688572374263617; 0.000000000000000000007511966335997836; -0.000000000000000000000033726401977221203;
  0.0000008459410111219067; -0.000000003822467345448275; 0.000000000017227856384247006; -0.00000000000007744812077846035;
  0.0000000000000003472889758873648; -0.0000000000000000015533872511785278; 0.000000000000000000006931204656681501; -0.00000000000000000000003084881819618233;
  0.0000008234135620705342; -0.000000003687687710609812; 0.000000000016473785206573992; -0.00000000000007340809368279699;
  0.00000000000000032629752919180313; -0.0000000000000000014468076520857306; 0.000000000000000000006399793074046973; -0.000000000000000000000028238415019056555;
  0.00000080167701135483; -0.0000000035587823439941934; 0.000000000015758884070556472; -0.00000000000006961124415645051;
  0.00000000000000030674039509763274; -0.000000000000000001348366050037334; 0.000000000000000000005913167835412828; -0.00000000000000000000002586841564091307;
  0.0000007806970343310965; -0.000000003435447387359233; 0.000000000015080805029822673; -0.0000000000000660410244518074;
  0.00000000000000028850849994034437; -0.0000000000000000012573793550287688; 0.0000000000000000000054672207604901826; -0.000000000000000000000023714920146799373;
  0.0000007604410744524705; -0.000000003317397121200303; 0.000000000014437359257816102; -0.00000000000006268214011886095;
  0.00000000000000027150188885671965; -0.0000000000000000011732268866795102; 0.000000000000000000005058250485502816; -0.000000000000000000000021756576069292287;
  0.0000007408782381572564; -0.0000000032043627404989443; 0.000000000013826505044918364; -0.00000000000005952044564478236;
  0.0000000000000002556288959475916; -0.0000000000000000010953442183031877; 0.0000000000000000000046829192690561346; -0.000000000000000000000019974288955551232;
  0.0000007219791968228533; -0.0000000030960912224494777; 0.000000000013246336791062494; -0.0000000000000565428495532206;
  0.0000000000000002408053959748312; -0.0000000000000000010232176720593734; 0.000000000000000000004338214686862968; -0.000000000000000000000018350967812957525;
  0.0000007037160952565605; -0.0000000029923442785653897; 0.000000000012695074903954569; -0.00000000000005373722803748959;
  0.0000000000000002269541290022393; -0.000000000000000000956379391776966; 0.0000000000000000000040214156284046546; -0.00000000000000000000001687130099461947;
  0.0000006860624662380532; -0.000000002892897384250637; 0.000000000012171056521784301; -0.00000000000005109234629897321;
  0.00000000000000021400409035491353; -0.0000000000000000008944029288189532; 0.0000000000000000000037300620830211796; -0.00000000000000000000001552155868031206;
  0.0000006689931506679244; -0.0000000027975388795379855; 0.000000000011672726987152068; -0.00000000000004859778684837641;
  0.000000000000000201889979121588; -0.0000000000000000008368992840291402; 0.000000000000000000003461928267412645; -0.000000000000000000000014289418619278687;
  0.0000006524842229127773; -0.0000000027060691352540564; 0.0000000000111986320059724; -0.00000000000004624388410416677;
  0.0000000000000001905516991738632; -0.0000000000000000007835133555106015; 0.0000000000000000000032149987024847626; -0.000000000000000000000013163812240995037;
  0.0000006365129209702558; -0.0000000026182997793749685; 0.000000000010747410431422664; -0.0000000000000440216646908123;
  0.0000000000000001799339073377233; -0.0000000000000000007339207478599826; 0.000000000000000000002987446896068675; -0.000000000000000000000012134788618853127;
  0.0000006210575811074258; -0.000000002534052978792868; 0.000000000010317787618669714; -0.000000000000041922792900218336;
  0.00000000000000016998560393716716; -0.0000000000000000006878249036306693; 0.0000000000000000000027776163303037523; -0.00000000000000000000001119339409856173;
  0.0000006060975766533375; -0.000000002453160772127039; 0.000000000009908569301197198; -0.000000000000039939520833963595;
  0.0000000000000001606597614466478; -0.0000000000000000006449545223155366; 0.000000000000000000002584003489258332; -0.000000000000000000000010331565685347249;
  0.0000005916132606516538; -0.0000000023754644495880866; 0.000000000009518635944133718; -0.00000000000003806464279229462;
  0.00000000000000015191298744657133; -0.0000000000000000006050612361079388; 0.0000000000000000000024052426944209397; -0.000000000000000000000009542036528126796;
  0.0000005775859121021435; -0.0000000023008139762437066; 0.000000000009146937534102571; -0.00000000000003629145351902504;
  0.00000000000000014370521848154336; -0.0000000000000000005679175151882152; 0.000000000000000000002240092543661024; -0.000000000000000000000008818252050119332;
  0.0000005639976855408038; -0.0000000022290674553432874; 0.000000000008792488768825653; -0.00000000000003461370995008964;
  0.0000000000000001359994417806404; -0.0000000000000000005333147783532174; 0.0000000000000000000020874237736813653; -0.000000000000000000000008154295458469366;
  0.0000005508315637275817; -0.0000000021600906286391095; 0.000000000008454364613060763; -0.000000000000033025596148038423;
  0.00000000000000012876144211820935; -0.0000000000000000005010616875110466; 0.0000000000000000000019462083873351213; -0.000000000000000000000007544821524313792;
  0.0000005380713132282544; -0.000000002093756410896993; 0.00000000000813169619047124; -0.000000000000031521691135678724;
  0.00000000000000012195957137734315; -0.0000000000000000004709826069481336; 0.0000000000000000000018155099058644736; -0.000000000000000000000006984997662686235
]%dec.

