(** Generated from src/histogram_bins.rs 24-1026 (ENERGIES) and 1028-2031 (BOUNDARIES).
    Each entry is [(d, m, e)]: the literal in the source is [d * 10^-36] and the
    binary64 value the compiler stores for it is [m * 2^e] (that this is the
    correct rounding is a theorem, see Table_proofs.v). *)
From Coq Require Import ZArith List.
From Verif Require Import Prelude Float.
Import ListNotations.
Local Open Scope Z_scope.
Definition energies_raw : list (Z * Z * Z) := [
  (118604181294802408330460116465, 8961478567596317, -76);
  (121366827574167330221758436329, 4585109109347738, -75);
  (124193824151992231012031240797, 4691910020438198, -75);
  (127086669939281845165938186586, 4801198644326255, -75);
  (130046898761164506108813478449, 4913032927286922, -75);
  (133076080170144241639272435218, 5027472165337304, -75);
  (136175820278300083164500495873, 5144577035676199, -75);
  (139347762608868109276901185375, 5264409628855958, -75);
  (142593588967656765790703522929, 5387033481703625, -75);
  (145915020334765644933593814470, 5512513611009120, -75);
  (149313817777069356649625423046, 5640916547997905, -75);
  (152791783381960179872757765729, 5772310373606784, -75);
  (156350761212839396451892742985, 5906764754581345, -75);
  (159992638286859704144248807423, 6044350980414024, -75);
  (163719345575453265876128940495, 6185142001142986, -75);
  (167532859028152318020234634241, 6329212466030974, -75);
  (171435200620267652772479318422, 6476638763145483, -75);
  (175428439424965355178869875000, 6627499059860674, -75);
  (179514692710315368466645409747, 6781873344302697, -75);
  (183696127061899357968153341687, 6939843467760617, -75);
  (187974959531556132442641480519, 7101493188084789, -75);
  (192353458812899659278390402002, 7266908214096673, -75);
  (196833946444205190676665097847, 7436176251032587, -75);
  (201418798039320321928522406624, 7609387047046212, -75);
  (206110444547249306096258587503, 7786632440794342, -75);
  (210911373541070649053865348685, 7968006410130814, -75);
  (215824130536885966504811475673, 8153605121934987, -75);
  (220851320343482467425502203430, 8343526983100549, -75);
  (225995608443437459329495827290, 8537872692712170, -75);
  (231259722406395123632129166326, 8736745295437589, -75);
  (236646453335256529655942180079, 8940250236163128, -75);
  (242158657346061866420800076302, 4574247707951031, -74);
  (247799257082341859659361518395, 4680795624502599, -74);
  (253571243264737311415610949636, 4789825360851923, -74);
  (259477676276724477811289537241, 4901394726008415, -74);
  (265521687787266133463828093886, 5015562875526256, -74);
  (271706482411267039829219508210, 5132390342869513, -74);
  (278035339408704514400048901646, 5251939071507808, -74);
  (284511614423327614638916391657, 5374272447759417, -74);
  (291138741261875572311867803321, 5499455334399756, -74);
  (297920233714716721277711904831, 5627554105052278, -74);
  (304859687418913929176766258733, 5758636679380784, -74);
  (311960781764676327227389217994, 5892772559101278, -74);
  (319227281846218118710857905573, 6030032864832648, -74);
  (326663040458069387164148763766, 6170490373805911, -74);
  (334272000137866037608284919269, 6314219558451424, -74);
  (342058195256749448038598041336, 6461296625885417, -74);
  (350025754158434145904939737912, 6611799558315839, -74);
  (358178901348111515076546966518, 6765808154389580, -74);
  (366521959732342609830570579615, 6923404071502850, -74);
  (375059352911114010589602261320, 7084670869096890, -74);
  (383795607523297042340776168146, 7249694052962444, -74);
  (392735355646725159801485550634, 7418561120575939, -74);
  (401883337254183342158645299638, 7591361607491813, -74);
  (411244402726609375318180547923, 7768187134815545, -74);
  (420823515424823416743892916594, 7949131457782253, -74);
  (430625754321172594639037306194, 8134290515467055, -74);
  (440656316692470246383449674135, 8323762481653253, -74);
  (450920520875653288033645853597, 8517647816885229, -74);
  (461423809087644204768763507574, 8716049321734132, -74);
  (472171750310878688237242479381, 8919072191303954, -74);
  (483170043246059843707355604958, 4563412035503740, -73);
  (494424519333682790447079356128, 4669707556820637, -73);
  (505941145845936529773804925941, 4778479018895027, -73);
  (517726029050642630075797744060, 4889784093795902, -73);
  (529785417448864496541981357336, 5003681796947242, -73);
  (542125705087956677426859909003, 5120232518418881, -73);
  (554753434951769766206124395030, 5239498054946087, -73);
  (567675302429821750185053984977, 5361541642694959, -73);
  (580898158867295254637172410156, 5486427990791203, -73);
  (594429015197695144078675420080, 5614223315629613, -73);
  (608275045660152243544348607540, 5744995375983012, -73);
  (622443591603289274270783236476, 5878813508928750, -73);
  (636942165377709199672849344626, 6015748666612217, -73);
  (651778454319138754807718035000, 6155873453866570, -73);
  (666960324824355964881119826493, 6299262166708780, -73);
  (682495826522059998624561427683, 6445990831732384, -73);
  (698393196540884901052533267202, 6596137246417735, -73);
  (714660863876842606370518289766, 6749781020381335, -73);
  (731307453862482643507862255933, 6907003617585855, -73);
  (748341792740160555318551689752, 7067888399533434, -73);
  (765772912341822404965114602649, 7232520669464994, -73);
  (783610054877810681185385400377, 7400987717589233, -73);
  (801862677837200514031901210643, 7573378867364992, -73);
  (820540459002286815143616029861, 7749785522861747, -73);
  (839653301579874826224259530549, 7930301217223278, -73);
  (859211339452084157642080663314, 8115021662260111, -73);
  (879224942549479419447925991615, 8304044799197302, -73);
  (899704722349328582768222730554, 8497470850604019, -73);
  (920661537501970945184556847224, 8695402373533085, -73);
  (942106499588191129262982302650, 8897944313897838, -73);
  (964050979010746688665058415357, 4552602031058018, -72);
  (986506611023098958088086048168, 4658645755024805, -72);
  (1009485301898570425036200451374, 4767159554635354, -72);
  (1032999235243230146092481211428, 4878200965342606, -72);
  (1057060878455775272560823209445, 4991828862772297, -72);
  (1081682989337934354241396207874, 5108103493939705, -72);
  (1106878622858805328842417455004, 5227086509193333, -72);
  (1132661138076786744085665444015, 5348840994902805, -72);
  (1159044205222719043190510689045, 5473431506908055, -72);
  (1186041812948024056834821562956, 5600924104747698, -72);
  (1213668275741675949195544532977, 5731386386684685, -72);
  (1241938241519922204241194001184, 5864887525547747, -72);
  (1270866699392818504598941069250, 6001498305407819, -72);
  (1300468987611642414110174614805, 6141291159108640, -72);
  (1330760801701442628150961165756, 6284340206671631, -72);
  (1361758202783003849199879552179, 6430721294595263, -72);
  (1393477626088681198648130260542, 6580512036069948, -72);
  (1425935889676567816725712839476, 6733791852129532, -72);
  (1459150203347653484720622754645, 6890642013761386, -72);
  (1493138177770693513556695027067, 7051145684997381, -72);
  (1527917833819604975101129860915, 7215387967008495, -72);
  (1563507612128393911579368226461, 7383455943226681, -72);
  (1599926382868596829684251260650, 7555438725517529, -72);
  (1637193455754532552882170998165, 7731427501428732, -72);
  (1675328590281523286081464749198, 7911515582538718, -72);
  (1714352006202676580664352387617, 8095798453931854, -72);
  (1754284394249653657667817156784, 8284373824825843, -72);
  (1795146927103153843485131707647, 8477341680378372, -72);
  (1836961270618989926851948382702, 8674804334700754, -72);
  (1879749595315561271486855601798, 8876866485105986, -72);
  (1923534588129000563250844274554, 4541817633810430, -71);
  (1968339464442051959706210181866, 4647610156895367, -71);
  (2014187980393203431043460879812, 4755866904403883, -71);
  (2061104445472488931676968010320, 4866645275496454, -71);
  (2109113735410706596417771893637, 4980004006331759, -71);
  (2158241305368863953152410231628, 5096003201209377, -71);
  (2208513203434824621315462830906, 5214704364437843, -71);
  (2259956084434374487415839866111, 5336170432945106, -71);
  (2312597224063946524700522561213, 5460465809648482, -71);
  (2366464533352565296559421800793, 5587656397601955, -71);
  (2421586573460623852284802695611, 5717809634938801, -71);
  (2477992570823418702472733590736, 5850994530628249, -71);
  (2535712432647373220035227903146, 5987281701064904, -71);
  (2594776762767239801794330253393, 6126743407510507, -71);
  (2655216877872661334638280938858, 6269453594407820, -71);
  (2717064824112675798127233828261, 6415487928586904, -71);
  (2780353394087045567516962643606, 6564923839384761, -71);
  (2845116144233276464026519136929, 6717840559699272, -71);
  (2911387412618755299602204406062, 6874319167999694, -71);
  (2979202337147167424535355861881, 7034442631315348, -71);
  (3048596874189139715284136214479, 7198295849225981, -71);
  (3119607817646763060515655366367, 7365965698876597, -71);
  (3192272818462181610625052682884, 7537541081040811, -71);
  (3266630404580687201257028010049, 7713112967257373, -71);
  (3342720001378660376082849192692, 7892774448064280, -71);
  (3420581952567501150770440040971, 8076620782356787, -71);
  (3500257541584341141412042158754, 8264749447894798, -71);
  (3581789013481115150765469665184, 8457260192986975, -71);
  (3665219597323418686767417321026, 8654255089378545, -71);
  (3750593529111139894137785799622, 8855838586371112, -71);
  (3837956075232978470220760597309, 4531058783101537, -70);
  (3927353556467251703893973913129, 4636600700359962, -70);
  (4018833372541833315707334589595, 4744601004682383, -70);
  (4112444027266085600489688156589, 4855116959259706, -70);
  (4208235154248234061559810759157, 4968207161113908, -70);
  (4306257543211734099082490384580, 5083931572166919, -70);
  (4406563166924702357955378334564, 5202351551033283, -70);
  (4509205208756532774457340129182, 5323529885553268, -70);
  (4614238090876433153841688905583, 5447530826083822, -70);
  (4721717503108786670614187980233, 5574420119564971, -70);
  (4831700432460599284106503303882, 5704265044379676, -70);
  (4944245193336827692712556747701, 5837134446025796, -70);
  (5059411458459365509496286072988, 5973098773618784, -70);
  (5177260290506426724274451067753, 6112230117244878, -70);
  (5297854174488644541903339946209, 6254602246184052, -70);
  (5421257050879567409543309530751, 6400290648023602, -70);
  (5547534349517697873819480763879, 6549372568682609, -70);
  (5676753024298216866575829409047, 6701927053368698, -70);
  (5808981588672951911097013660834, 6858034988489003, -70);
  (5944290151976951229028517387221, 7017779144537016, -70);
  (6082750456601522435443486075402, 7181244219978765, -70);
  (6224435916032892319191358737607, 7348516886160937, -70);
  (6369421653777092632003203886981, 7519685833265272, -70);
  (6517784543191387124560706722853, 7694841817333212, -70);
  (6669603248243559648811198264928, 7874077708385975, -70);
  (6824958265220599986245614276825, 8057488539665480, -70);
  (6983931965408849222283569485592, 8245171558022169, -70);
  (7146608638768426275463419711231, 8437226275476669, -70);
  (7313074538624825799803912118602, 8633754521982318, -70);
  (7483417927401605129669043270368, 8834860499416792, -70);
  (7657729123418223626134672399335, 4520325418415621, -69);
  (7836100548778107447128564444494, 4625617323493271, -69);
  (8018626778372005140319012106431, 4733361792103120, -69);
  (8205404590022868363194397112181, 4843615951788592, -69);
  (8396533015798748685759068932644, 4956438260764549, -69);
  (8592113394520842635211990701016, 5071888538912570, -69);
  (8792249425494794617995733543303, 5190027999498314, -69);
  (8997047223493286039440464119110, 5310919281627512, -69);
  (9206615375019709240087331658664, 5434626483458178, -69);
  (9421064995881911716146296653651, 5561215196186149, -69);
  (9640509790107467733683531407873, 5690752538822523, -69);
  (9865066110230990851430281363132, 5823307193781007, -69);
  (10094853018985705097394951768042, 5958949443294193, -69);
  (10329992352432302307957759368584, 6097751206678258, -69);
  (10570608784557752302091758467295, 6239786078465371, -69);
  (10816829893379344812963382960191, 6385129367424632, -69);
  (11068786228588054558973595431492, 6533858136491667, -69);
  (11326611380767868711406075321602, 6686051243628507, -69);
  (11590442052227190855421580517604, 6841789383635069, -69);
  (11860418129480239721315268375257, 7001155130934622, -69);
  (12136682757416759068438971702619, 7164232983355856, -69);
  (12419382415199222465928413638991, 7331109406934684, -69);
  (12708666993928185469505884319652, 7501872881759774, -69);
  (13004689876116424141101746148053, 7676613948885800, -69);
  (13307608017014425010960190776110, 7855425258339538, -69);
  (13617582027830037221449374640336, 8038401618244078, -69);
  (13934776260886811986481302605423, 8225640045087435, -69);
  (14259358896765678167257128394763, 8417239815161915, -69);
  (14591502033476535694239174800746, 8613302517201733, -69);
  (14931381777706936406116371152120, 8813932106246727, -69);
  (15279178338196048480461877727699, 4509617479380309, -68);
  (15635076121283940386343103146061, 4614659964516676, -68);
  (15999263828685969567391933487954, 4722149203448456, -68);
  (16371934557545327222887604490253, 4832142188392958, -68);
  (16753285902815233707847594746276, 4944697239086699, -68);
  (17143520062026766653676471130474, 5059874033707409, -68);
  (17542843942496537000194645194995, 5177733640516152, -68);
  (17951469271031536740785422567868, 5298338550236482, -68);
  (18369612706189898421486536572722, 5421752709187971, -68);
  (18797495953155615255967397780879, 5548041553191242, -68);
  (19235345881290003938442548236942, 5677272042263037, -68);
  (19683394644420517055963260055762, 5809512696119208, -68);
  (20141879803932031769335767035223, 5944833630504853, -68);
  (20611044454724887622703785594602, 6083306594370567, -68);
  (21091137354107066811210666190668, 6225005007914699, -68);
  (21582413053688642072622944079185, 6370004001511722, -68);
  (22085132034348247060187575563361, 6518380455547304, -68);
  (22599560844343743180092504152512, 6670213041181382, -68);
  (23125972240639466941071120120732, 6825582262060603, -68);
  (23664645333525650424495376245027, 6984570497002443, -68);
  (24215865734606237675815079701813, 7147262043673501, -68);
  (24779925708234186177694388653059, 7313743163285311, -68);
  (25357124326473732200352279031463, 7484102126331130, -68);
  (25947767627672395476844460771026, 7658429259388133, -68);
  (26552168778726613346382809388579, 7836816993009775, -68);
  (27170648241126757981272338282608, 8019359910733630, -68);
  (27803533940870454828136679181760, 8206154799230951, -68);
  (28451161442332761252133402352094, 8397300699624089, -68);
  (29113874126187554690087938569221, 8592898959999618, -68);
  (29792023371471674245353558618810, 8793053289144185, -68);
  (30485968741891396305808414890492, 8997869811532476, -68);
  (31196078176467629758123606409370, 4603728561797873, -67);
  (31922728184621816953283474083136, 4710963175650507, -67);
  (32666304045806871165537332846185, 4820695604535858, -67);
  (33427200013786603760828491926915, 4932984030040175, -67);
  (34205819525675012354737347664013, 5047887988972992, -67);
  (35002575415843413108186316096138, 5165468404934249, -67);
  (35817890134811148966555854888938, 5285787620616859, -67);
  (36652195973234189408773014973164, 5408909430861591, -67);
  (37505935291111398941377857996216, 5534899116481945, -67);
  (38379560752329783008141711464489, 5663823478876921, -67);
  (39273535564672513650807950114086, 5795750875449952, -67);
  (40188333725418334851139240404549, 5930751255852979, -67);
  (41124440272660852616765092548690, 6068896199074632, -67);
  (42082351542482340615598107591566, 6210258951392385, -67);
  (43062575432117342684890798354402, 6354914465208649, -67);
  (44065631669247025273619677854242, 6502939438791604, -67);
  (45092052087565327744573401291817, 6654412356941585, -67);
  (46142380908764328150285100038630, 6809413532604777, -67);
  (47217175031087868400207774310928, 6968025149456214, -67);
  (48317004324605986064801455004414, 7130331305474594, -67);
  (49442451933368276927125567477006, 7296418057532245, -67);
  (50594114584593655094962860729879, 7466373467023480, -67);
  (51772602905064263854612721660331, 7640287646556097, -67);
  (52978541744886445419033399462094, 7818252807730065, -67);
  (54212570508795670707301306290304, 8000363310029502, -67);
  (55475343495176977044128913130194, 8186715710853261, -67);
  (56767530242982172053890083107675, 8377408816710873, -67);
  (58089815886729520805036031116941, 8572543735611254, -67);
  (59442901519769512290285173872206, 8772223930671270, -67);
  (60827504566015229436632544279817, 8976555274973457, -67);
  (62244359160328928274111270901869, 4592823053850586, -66);
  (63694216537770926320032038869812, 4699803645790795, -66);
  (65177845431913878021870645262936, 4809276135833258, -66);
  (66696032482435591405914299123481, 4921298567741234, -66);
  (68249582652205999862456142768252, 5035930337290925, -66);
  (69839319654088497305033378381722, 5153232223763856, -66);
  (71466086387684261060568302603713, 5273266422172918, -66);
  (73130745386248261386170910203219, 5396096576238949, -66);
  (74834179274016051296690432703684, 5521787812135495, -66);
  (76577291234182246425742091044953, 5650406773019527, -66);
  (78361005487781077859417433462141, 5782021654366589, -66);
  (80186267783720051403190121064313, 5916702240128900, -66);
  (82054045900228683631943971121814, 6054519939735740, -66);
  (83965330157987483469458900309235, 6195547825955686, -66);
  (85921133945208419575856328975760, 6339860673640712, -66);
  (87922494254947939403693757398628, 6487534999372892, -66);
  (89970472234932860394404641191102, 6638649102034390, -66);
  (92066153750197099177136894621043, 6793283104322723, -66);
  (94210649958819113773331177519310, 6951518995232686, -66);
  (96405097901074667172439947027129, 7113440673528153, -66);
  (98650661102309911902434602648526, 7279133992226259, -66);
  (100948530189857142453507821144854, 7448686804117748, -66);
  (103299923524323016303314015651438, 7622189008347822, -66);
  (105706087845577512856522217621347, 7799732598081713, -66);
  (108168298933793326156889424982666, 7981411709280781, -66);
  (110687862285880548977867743332126, 8167322670614584, -66);
  (113266113807678568529448137613969, 8357564054535625, -66);
  (115904420522271905166084016158834, 8552236729543836, -66);
  (118604181294802525962160666406220, 8751443913668287, -66);
  (121366827574167590684389717026193, 8955291229194820, -66);
  (124193824151992238211811292458719, 4581943379334178, -65);
  (127086669939281861471322421230923, 4688670551099859, -65);
  (130046898761164241411017461480526, 4797883718053625, -65);
  (133076080170144107808066769038646, 4909640786462206, -65);
  (136175820278300378990757324437766, 5024001011402549, -65);
  (139347762608868258778216375759484, 5141025028179652, -65);
  (142593588967656785060703072964827, 5260774884476197, -65);
  (145915020334765516184585831815923, 5383314073251089, -65);
  (149313817777069353896768344469592, 5508707566404204, -65);
  (152791783381960505133409511380194, 5637021849225387, -65);
  (156350761212839241233105158634942, 5768324955645839, -65);
  (159992638286859695673919334879542, 5902686504310570, -65);
  (163719345575453096046023016008064, 6040177735491191, -65);
  (167532859028152316749685213359555, 6180871548858373, -65);
  (171435200620267849495881318233614, 6324842542134268, -65);
  (175428439424965370001946451949948, 6472167050645190, -65);
  (179514692710315570695761566710758, 6622923187795610, -65);
  (183696127061898990991128943761623, 6777190886484964, -65);
  (187974959531556139007146821739980, 6935051941489052, -65);
  (192353458812899842872781719371744, 7096590052828789, -65);
  (196833946444205197664686912695231, 7261890870149011, -65);
  (201418798039320121181713907354549, 7431042038131059, -65);
  (206110444547248883003301433980425, 7604133242963209, -65);
  (210911373541070864623750424904358, 7781256259893381, -65);
  (215824130536886407173702284723049, 7962505001889652, -65);
  (220851320343482470601875755633614, 8147975569434130, -65);
  (225995608443437445353452197593924, 8337766301476728, -65);
  (231259722406394649081920467104112, 8531977827575753, -65);
  (236646453335256267075728531246170, 8730713121253045, -65);
  (242158657346062369981887218983729, 8934077554591876, -65);
  (247799257082342112498696273803489, 4571089477053324, -64);
  (253571243264737362661104258521050, 4677563828956957, -64);
  (259477676276724219042724151051971, 4786518287117588, -64);
  (265521687787266113135037359782586, 4898010620631109, -64);
  (271706482411267593365250538894884, 5012099944208519, -64);
  (278035339408704256902032936338287, 5128846749519339, -64);
  (284511614423327632850124757624144, 5248312937265056, -64);
  (291138741261875262297809108247293, 5370561849999756, -64);
  (297920233714716762782326320291304, 5495658305715116, -64);
  (304859687418914261213681582418644, 5623668632207803, -64);
  (311960781764676338238817532300118, 5754660702247342, -64);
  (319227281846218454135905018276276, 5888703969563139, -64);
  (326663040458068738760427640599460, 6025869505669823, -64);
  (334272000137866051160812075337958, 6166230037550219, -64);
  (342058195256749798286721730988802, 6309859986216234, -64);
  (350025754158434117529336004892571, 6456835506167811, -64);
  (358178901348111123747325335031633, 6607234525771067, -64);
  (366521959732341853430148681525225, 6761136788576988, -64);
  (375059352911114409542120418095124, 6918623895602439, -64);
  (383795607523297816528889958576087, 7079779348596151, -64);
  (392735355646725136508079501140855, 7244688594312440, -64);
  (401883337254183362063919560114300, 7413439069816224, -64);
  (411244402726608526167650925486896, 7586120248843290, -64);
  (420823515424823013132693549920305, 7762823689240474, -64);
  (430625754321173467506489451750440, 7943643081510812, -64);
  (440656316692470686417065772744195, 8128674298489513, -64);
  (450920520875653263893206856849361, 8318015446176981, -64);
  (461423809087643755841301462794490, 8511766915755980, -64);
  (472171750310878656897023430971672, 8710031436820267, -64);
  (483170043246059887753068862181749, 8912914131843243, -64);
  (494424519333682213617642275949038, 4560261285957648, -63);
  (505941145845936550949628607298791, 4666483416889675, -63);
  (517726029050642137102622442057509, 4775179779097556, -63);
  (529785417448864494847915462827359, 4886408004831291, -63);
  (542125705087957276279153617792872, 5000227068768444, -63);
  (554753434951769756888761975233137, 5116697319283288, -63);
  (567675302429822303297568542035378, 5235880510444301, -63);
  (580898158867295235155414623307024, 5357839834757034, -63);
  (594429015197695150007906050859674, 5482639956669544, -63);
  (608275045660151684502603419701927, 5610347046858405, -63);
  (622443591603289228531004084743472, 5741028817313232, -63);
  (636942165377707989262767718230407, 5874754557238482, -63);
  (651778454319138075487294337051480, 6011595169791566, -63);
  (666960324824355968269251615510029, 6151623209676543, -63);
  (682495826522059320998203624242251, 6294912921613650, -63);
  (698393196540884864630116535266779, 6441540279704819, -63);
  (714660863876841905874270910459245, 6591583027716141, -63);
  (731307453862482586756654789894583, 6745120720298686, -63);
  (748341792740159022188917159468247, 6902234765169355, -63);
  (765772912341821624000737234183589, 7063008466274401, -63);
  (783610054877810751489120022483803, 7227527067958236, -63);
  (801862677837199646670163222239580, 7395877800161117, -63);
  (820540459002286836319439711218138, 7568149924669675, -63);
  (839653301579874021542959638964021, 7744434782444600, -63);
  (859211339452084195758563289757603, 7924825842050890, -63);
  (879224942549477550893244348628741, 8109418749216098, -63);
  (899704722349328658154155036186239, 8298311377542988, -63);
  (920661537501969067312512784440059, 8491603880403386, -63);
  (942106499588190216161465162514332, 8689398744040849, -63);
  (964050979010746753039562406684126, 8891800841910192, -63);
  (986506611023098061927227853118438, 4549458745141407, -62);
  (1009485301898570448753122974494545, 4655429252573588, -62);
  (1032999235243229133041076295285166, 4763868130217384, -62);
  (1057060878455775209880385112626300, 4874832873801071, -62);
  (1081682989337932150261667452184611, 4988382318300483, -62);
  (1106878622858804405576504947816829, 5104576669134110, -62);
  (1132661138076784465567037329947198, 5223477534084760, -62);
  (1159044205222717859038450427533462, 5345147955964892, -62);
  (1186041812948024094104271242144932, 5469652446042674, -62);
  (1213668275741674714221507436207048, 5597057018246757, -62);
  (1241938241519922273697895676036751, 5727429224167722, -62);
  (1270866699392817367880725853979129, 5860838188874818, -62);
  (1300468987611642359900065990530038, 5997354647567031, -62);
  (1330760801701439885458277956331585, 6137050983077752, -62);
  (1361758202783002434654857637497116, 6280001264253180, -62);
  (1393477626088681286739556774989524, 6426281285224559, -62);
  (1425935889676566278513880625666843, 6575968605595239, -62);
  (1459150203347653589752708214177801, 6729142591563854, -62);
  (1493138177770692021084641964989714, 6885884458005248, -62);
  (1527917833819604888703769240976271, 7046277311531733, -62);
  (1563507612128390731817684233817545, 7210406194557291, -62);
  (1599926382868596848318976100244981, 7378358130388212, -62);
  (1637193455754529279946862807548769, 7550222169363981, -62);
  (1675328590281521595403702029614124, 7726089436072959, -62);
  (1714352006202676543394902708428162, 7906053177667826, -62);
  (1754284394249651856875771294141941, 8090208813306479, -62);
  (1795146927103153646973487944649150, 8278653984744503, -62);
  (1836961270618987958347378963708252, 8471488608106196, -62);
  (1879749595315561390071468217399797, 8668814926861315, -62);
  (1923534588128996422953798095534239, 8870737566035977, -62);
  (1968339464442049862452632780218664, 4538681793843127, -61);
  (2014187980393199097622902726811844, 4644401273831907, -61);
  (2061104445472486824258995241621051, 4752583276852001, -61);
  (2109113735410706423623050653759492, 4863285162433358, -61);
  (2158241305368861686492243379120737, 4976565626181027, -61);
  (2208513203434824597598540307785697, 5092484730896331, -61);
  (2259956084434372285130177004930374, 5211103938422950, -61);
  (2312597224063946653449530543866786, 5332486142234846, -61);
  (2366464533352560448142831717177614, 5456695700783148, -61);
  (2421586573460621314574092721727538, 5583798471619917, -61);
  (2477992570823418522901748772824249, 5713861846316649, -61);
  (2535712432647370916105611371449413, 5846954786196190, -61);
  (2594776762767239588342027545309065, 5983147858896979, -61);
  (2655216877872658420844942384064780, 6122513275788880, -61);
  (2717064824112676042072722637499282, 6265124930260649, -61);
  (2780353394087039641674463652520899, 6411058436899167, -61);
  (2845116144233276328501247576241440, 6560391171581320, -61);
  (2911387412618749587212008123060514, 6713202312499688, -61);
  (2979202337147164158376311249298851, 6869572882143887, -61);
  (3048596874189139684790950113324470, 7029585790259747, -61);
  (3119607817646760129781657866487876, 7193325877809170, -61);
  (3192272818462181614013184471900786, 7360879961953917, -61);
  (3266630404580684026577541700930851, 7532336882087271, -61);
  (3342720001378660186347469007728250, 7707787546937773, -61);
  (3420581952567494296579830859172944, 7887324982770284, -61);
  (3500257541584337814266625343861961, 8071044382709756, -61);
  (3581789013481107442765649651050808, 8259043157213825, -61);
  (3665219597323415064854534861638058, 8451420985721227, -61);
  (3750593529111139867032731487483943, 8648279869503039, -61);
  (3837956075232974370581295886495354, 8849724185745180, -61);
  (3927353556467251365080795011408554, 4527930371445275, -60);
  (4018833372541829283830505659125265, 4633399418635135, -60);
  (4112444027266085044836074757768074, 4741325155527056, -60);
  (4208235154248225577677811060084423, 4851764805775291, -60);
  (4306257543211729904575335581284889, 4964776925944252, -60);
  (4406563166924702852622619531075543, 5080421436555941, -60);
  (4509205208756528193703161377925426, 5198759653860608, -60);
  (4614238090876432787923455691725394, 5319854322347482, -60);
  (4721717503108781473220023627845876, 5443769648012661, -60);
  (4831700432460598985950905870367933, 5570571332402027, -60);
  (4944245193336817799367732817472643, 5700326607447055, -60);
  (5059411458459365726336720570088801, 5833104271112094, -60);
  (5177260290506416166855796490153807, 5968974723871939, -60);
  (5297854174488639093787423206549647, 6108010006039107, -60);
  (5421257050879567558621108247507436, 6250283835960549, -60);
  (5547534349517691497355453833506544, 6395871649104103, -60);
  (5676753024298217611964822992831614, 6544850638055370, -60);
  (5808981588672946713702849308447185, 6697299793446286, -60);
  (5944290151976951500079060508596740, 6853299945836930, -60);
  (6082750456601510556653433781093554, 7012933808572999, -60);
  (6224435916032886213777874928609890, 7176286021641533, -60);
  (6369421653777079458946808188102295, 7343443196548102, -60);
  (6517784543191380321192074376313030, 7514493962239457, -60);
  (6669603248243559899532950652201180, 7689529012095679, -60);
  (6824958265220592776301167248220736, 7868641152017062, -60);
  (6983931965408848863141599849768681, 8051925349631024, -60);
  (7146608638768418841902274607491563, 8239478784645176, -60);
  (7313074538624826301247416893147602, 8431400900373358, -60);
  (7483417927401590438729606091783353, 8627793456461694, -60);
  (7657729123418216890528675833138550, 8828760582843002, -60);
  (7836100548778106647529462236434483, 4517204417473897, -59);
  (8018626778371996249861197725294915, 4622423625100698, -59);
  (8205404590022868580034831609282264, 4730093702918547, -59);
  (8396533015798740215429596389640210, 4840271739027875, -59);
  (8592113394520841523904763903374260, 4953016151281806, -59);
  (8792249425494775075251574492085638, 5068386718260061, -59);
  (8997047223493285714179812373458844, 5186444610964367, -59);
  (9206615375019691974167734827005916, 5307252425252117, -59);
  (9421064995881902812135955116445984, 5430874215025531, -59);
  (9640509790107467530395624066841265, 5557375526193870, -59);
  (9865066110230981052953147525386157, 5686823431426759, -59);
  (10094853018985704487531229744945449, 5819286565716985, -59);
  (10329992352432291330410762952851655, 5954835162771730, -59);
  (10570608784557745593590816213236394, 6093541092251335, -59);
  (10816829893379327140467971446469164, 6235477897875607, -59);
  (11068786228588043188403311489764747, 6380720836417637, -59);
  (11326611380767849859840801229893259, 6529346917605953, -59);
  (11590442052227178590384504275334621, 6681434944956115, -59);
  (11860418129480240073680974433045776, 6837065557553342, -59);
  (12136682757416746708534205367868708, 6996321272808446, -59);
  (12419382415199216665446790841542679, 7159286530209649, -59);
  (12708666993928172811445520551387744, 7326047736093522, -59);
  (13004689876116417093787624992273777, 7496693309458785, -59);
  (13307608017014405793476683470544231, 7671313728847194, -59);
  (13617582027830024346548576374971162, 7850001580316475, -59);
  (13934776260886811566352960767289915, 8032851606530698, -59);
  (14259358896765663218819675250870205, 8219960756994049, -59);
  (14591502033476535030165344153374463, 8411428239454817, -59);
  (14931381777706920210846419649897143, 8607355572506560, -59);
  (15279178338196041514462919508332561, 8807846639414662, -59);
  (15635076121283914690751615239605599, 4506503871598309, -58);
  (15999263828685959809572381118414341, 4611473831492630, -58);
  (16371934557545299304681662988514290, 4718888855852490, -58);
  (16753285902815214652994413313535915, 4828805897545599, -58);
  (17143520062026768036034241049492266, 4941283236042392, -58);
  (17542843942496517267715105958814092, 5056380508316549, -58);
  (17951469271031538638139224417500373, 5174158740465315, -58);
  (18369612706189881318197265613889613, 5294680380066373, -58);
  (18797495953155603926054695307357179, 5418009329288319, -58);
  (19235345881289975938921443798790278, 5544210978772489, -58);
  (19683394644420499491888065790590190, 5673352242303909, -58);
  (20141879803932002251931621117364557, 5805501592289887, -58);
  (20611044454724867375228214427806961, 5940729096065001, -58);
  (21091137354107065970953982514402014, 6079106453041698, -58);
  (21582413053688617732284171779610915, 6220707032726284, -58);
  (22085132034348236435006285205417953, 6365605913620411, -58);
  (22599560844343721116578294072496647, 6513879923028687, -58);
  (23125972240639454391430973601018195, 6665607677793554, -58);
  (23664645333525614889769173032618710, 6820869625978938, -58);
  (24215865734606212278379189228871837, 6979748089524896, -58);
  (24779925708234187831102701693453128, 7142327307895812, -58);
  (25357124326473721304120445552143792, 7308693482745241, -58);
  (25947767627672410628569821255950956, 7478934823621228, -58);
  (26552168778726584208449423840647796, 7653141594736100, -58);
  (27170648241126759553365488386589277, 7831406162825811, -58);
  (27803533940870425039681990142526047, 8013823046123967, -58);
  (28451161442332763285012475762414397, 8200488964476650, -58);
  (29113874126187523627695696859518648, 8391502890624618, -58);
  (29792023371471659798359610249463003, 8586966102679864, -58);
  (30485968741891411593059046936105005, 8786982237824688, -58);
  (31196078176467599563093102688071667, 8991657347261462, -58);
  (31922728184621829150557914545061067, 4600549976221200, -57);
  (32666304045806837663690203044097871, 4707710551304544, -57);
  (33427200013786600996112952088878956, 4817367216836108, -57);
  (34205819525674974190820876174257137, 4929578114231432, -57);
  (35002575415843395489901013206690550, 5044402739193600, -57);
  (35817890134811111724211230011860607, 5161901973258646, -57);
  (36652195973234165393694894419240882, 5282138116075769, -57);
  (37505935291111416884923812631313922, 5405174918439402, -57);
  (38379560752329740236366006911339355, 5531077616090737, -57);
  (39273535564672515385531426090892637, 5659912964306594, -57);
  (40188333725418294573028532568059745, 5791749273293919, -57);
  (41124440272660857387254651484909118, 5926656444408821, -57);
  (42082351542482299144865010021021590, 6064706007219120, -57);
  (43062575432117319862435067534534028, 6205971157430318, -57);
  (44065631669247047608184431055633468, 6350526795694929, -57);
  (45092052087565302753713325500939391, 6498449567325763, -57);
  (46142380908764352165363220592553262, 6649817902934356, -57);
  (47217175031087819936370664208880044, 6804712060015827, -57);
  (48317004324605991594232534680486424, 6963214165502534, -57);
  (49442451933368228300658131502132164, 7125408259308826, -57);
  (50594114584593653793920253747273819, 7291380338890117, -57);
  (51772602905064211975538768228943809, 7461218404839931, -57);
  (52978541744886420428173323671217076, 7635012507548888, -57);
  (54212570508795701607063222127180779, 7812854794950690, -57);
  (55475343495176916708278014311872539, 7994839561380129, -57);
  (56767530242982200405776893603615463, 8181063297569216, -57);
  (58089815886729463667581541130857659, 8371624741807857, -57);
  (59442901519769511531343653132353211, 8566624932296162, -57);
  (60827504566015162812409045045569655, 8766167260716257, -57);
  (62244359160328895097524792845433694, 8970357527051921, -57);
  (63694216537770853570066265092464164, 4589651997842568, -56);
  (65177845431913836171666787322465098, 4696558726399663, -56);
  (66696032482435635424522502034960780, 4805955632559802, -56);
  (68249582652205931232458624435821548, 4917900720010664, -56);
  (69839319654088488631415998497686815, 5032453343519390, -56);
  (71466086387684188419022746074915631, 5149674240403235, -56);
  (73130745386248266481921120885090204, 5269625562733349, -56);
  (74834179274015977245682051943731494, 5392370910288564, -56);
  (76577291234182207069203229821141576, 5517975364276879, -56);
  (78361005487781118516998901668557664, 5646505521842375, -56);
  (80186267783720011070869304603547789, 5778029531375876, -56);
  (82054045900228730903158691489807097, 5912617128648187, -56);
  (83965330157987405623742915850016288, 6050339673784844, -56);
  (85921133945208422177941542940970976, 6191270189102258, -56);
  (87922494254947844427583447668439476, 6335483397825083, -56);
  (89970472234932860611245075688202633, 6483055763705459, -56);
  (92066153750196999538957243203185499, 6634065531565152, -56);
  (94210649958819073224169926561444299, 6788592768781917, -56);
  (96405097901074723876213568019011291, 6946719407742341, -56);
  (98650661102309800121190619393019006, 7108529289283448, -56);
  (100948530189857096917016576753667323, 7274108207146235, -56);
  (103299923524322947998577149064658443, 7443543953464665, -56);
  (105706087845577514916506345343805151, 7616926365314173, -56);
  (108168298933793302629702282047219342, 7794347372344511, -56);
  (110687862285880483925737394201860297, 7975901045522050, -56);
  (113266113807678536762324483788688667, 8161683647007444, -56);
  (115904420522271844884443225964787416, 8351793681195148, -56);
  (118604181294802463186854879495513160, 8546331946941682, -56);
  (121366827574167487902023765400372213, 8745401591010559, -56);
  (124193824151992232573959995534096379, 8949108162762066, -56);
  (127086669939281748931136917235562578, 4578779835058452, -55);
  (130046898761164236857368337041407358, 4685433318411743, -55);
  (133076080170144078751448546427127440, 4794571080529497, -55);
  (136175820278300302446083946961152833, 4906250987697799, -55);
  (139347762608868191991362550652411301, 5020532254081689, -55);
  (142593588967656698107688839627371635, 5137475473121283, -55);
  (145915020334765443976721144281327724, 5257142649659264, -55);
  (149313817777069257619615427756798454, 5379597232816602, -55);
  (152791783381960505350249945877294522, 5504904149634167, -55);
  (156350761212839195479773479746654630, 5633129839497888, -55);
  (159992638286859639729087234627513681, 5764342289365789, -55);
  (163719345575453006924604437699599657, 5898611069815613, -55);
  (167532859028152236735564883929328062, 6036007371932002, -55);
  (171435200620267708115918026123836171, 6176604045052991, -55);
  (175428439424965193493832771309826057, 6320475635395687, -55);
  (179514692710315421075861763711145613, 6467698425581645, -55);
  (183696127061898806243078752231667750, 6618350475082966, -55);
  (187974959531556101710592088238627184, 6772511661610401, -55);
  (192353458812899752450320534080674406, 6930263723465611, -55);
  (196833946444205071246713600885414053, 7091690302879889, -55);
  (201418798039320029458210115080873948, 7256876990362359, -55);
  (206110444547248777835690702886495274, 7425911370081255, -55);
  (210911373541070701342903248587390408, 7598883066302124, -55);
  (215824130536886177322841717796109151, 7775883790907855, -55);
  (220851320343482399044532371590321418, 7957007392025515, -55);
  (225995608443437218104676844632194843, 8142349903785859, -55);
  (231259722406394585547673159453552216, 8332009597241944, -55);
  (236646453335256162775479538140643854, 8526087032473673, -55);
  (242158657346062233806094354804372415, 8724685111906124, -55);
  (247799257082341933822178248192358296, 8927909134869767, -55);
  (253571243264737233857886167243123055, 4567933426715776, -54);
  (259477676276724023018971365672769025, 4674334264763266, -54);
  (265521687787265869840069854035391472, 4783213496710063, -54);
  (271706482411267546961397556515294127, 4894628851766131, -54);
  (278035339408704118557835727187921293, 5008639403827477, -54);
  (284511614423327563461185718551860191, 5125305602797905, -54);
  (291138741261875111376866698265075684, 5244689306640384, -54);
  (297920233714716597983596102494630031, 5366853814174915, -54);
  (304859687418913505307926925524952821, 5491863898640419, -54);
  (311960781764676009508718834695173427, 5619785842038414, -54);
  (319227281846218235994427914192783646, 5750687470276499, -54);
  (326663040458068931748414343019248918, 5884638189130690, -54);
  (334272000137865954449978289630962536, 6021709021045134, -54);
  (342058195256749075774393986648647115, 6161972642789278, -54);
  (350025754158433899387858900809078477, 6305503423991999, -54);
  (358178901348110978464234221974038519, 6452377466573305, -54);
  (366521959732342250681824680214049295, 6602672645094722, -54);
  (375059352911114085582511279426398687, 6756468648049251, -54);
  (383795607523296777863208717462839559, 6913847020113410, -54);
  (392735355646725070588587414022185840, 7074891205383241, -54);
  (401883337254182959608073133495054208, 7239686591617399, -54);
  (411244402726609115106271019612904638, 7408320555511036, -54);
  (420823515424822824915196406436734833, 7580882509023897, -54);
  (430625754321172449223809053364675492, 7757463946787884, -54);
  (440656316692470351181754040226223879, 7938158494618659, -54);
  (450920520875652985903769831566023640, 8123061959157203, -54);
  (461423809087644132276295749761629850, 8312272378667956, -54);
  (472171750310878157730343218645430170, 8505890075019783, -54);
  (483170043246059000008330031050718389, 8704017706878151, -54);
  (494424519333682088717552005618927069, 8906760324136029, -54);
  (505941145845936413039112267142627388, 4557112711806322, -53);
  (517726029050642799766990265197819099, 4663261503024963, -53);
  (529785417448864093259430774196516722, 4771882817218054, -53);
  (542125705087955989114334443002007902, 4883034246844172, -53);
  (554753434951769208716143566562095657, 4996774725862581, -53);
  (567675302429821782013164011004846543, 5113164560980758, -53);
  (580898158867295566487598534877179191, 5232265463629919, -53);
  (594429015197694976535558453178964555, 5354140582685100, -53);
  (608275045660150448512126786226872355, 5478854537947650, -53);
  (622443591603288881586308889382053167, 5606473454407450, -53);
  (636942165377708313656057725893333554, 5737064997303208, -53);
  (651778454319139388672965651494450867, 5870698407999588, -53);
  (666960324824356076689468864060472697, 6007444540699750, -53);
  (682495826522058202101561619201675057, 6147375900013320, -53);
  (698393196540884830803008753719041124, 6290566679399237, -53);
  (714660863876841911945803076378069818, 6437092800504044, -53);
  (731307453862483636264357755862874910, 6587031953416695, -53);
  (748341792740159439389913131890352815, 6740463637860702, -53);
  (765772912341820766179978363652480766, 6897469205346087, -53);
  (783610054877810879858657244767528027, 7058131902302966, -53);
  (801862677837199999686390583519823849, 7222536914219844, -53);
  (820540459002288335987884693167870864, 7390771410810243, -53);
  (839653301579874056237429158500162885, 7562924592231055, -53);
  (859211339452082611956029722932726145, 7739087736377808, -53);
  (879224942549478138964502704766346142, 7919354247281351, -53);
  (899704722349328411823421447479631752, 8103819704631822, -53);
  (920661537501971216634899519704049453, 8292581914456451, -53);
  (942106499588190593463821187469875440, 8485740960977395, -53);
  (964050979010745323627418201795080677, 8683399259677909, -53);
  (986506611023098112234208656445844099, 8885661611604311, -53);
  (1009485301898570774881136458134278655, 4546317629466396, -52);
  (1032999235243230895520127887721173465, 4652214970915422, -52);
  (1057060878455774899364882912777829915, 4760578978321357, -52);
  (1081682989337931166673456573334988207, 4871467107715311, -52);
  (1106878622858804783746222710760775954, 4984938153451281, -52);
  (1132661138076785256600942375371232629, 5101052279379652, -52);
  (1159044205222720336223574122413992882, 5219871050746976, -52);
  (1186041812948024354312792638665996492, 5341457466838550, -52);
  (1213668275741672797352066481835208833, 5465875994381590, -52);
  (1241938241519922048183843799051828682, 5593192601726290, -52);
  (1270866699392817267266764247324317694, 5723474793823064, -52);
  (1300468987611644200441674001922365278, 5856791648014687, -52);
  (1330760801701440732003334233013447374, 5993213850661871, -52);
  (1361758202783000637481336525524966419, 6132813734622238, -52);
  (1393477626088681420313264425203669816, 6275665317602109, -52);
  (1425935889676566814543434702500235289, 6421844341401603, -52);
  (1459150203347656216124050843063741922, 6571428312074088, -52);
  (1493138177770692021084641964989714324, 6724496541020750, -52);
  (1527917833819602000389181739592459053, 6881130187042695, -52);
  (1563507612128391732753129872435238212, 7041412299372359, -52);
  (1599926382868596563824326040048617870, 7205427861707237, -52);
  (1637193455754532900314757171145174652, 7373263837269529, -52);
  (1675328590281522256333346376777626574, 7545009214915002, -52);
  (1714352006202674250090467467089183629, 7720755056316226, -52);
  (1754284394249651990449478944356087595, 7900594544244609, -52);
  (1795146927103154155247466405853629112, 8084623031977056, -52);
  (1836961270618991060032954010239336640, 8272938093853721, -52);
  (1879749595315560961594769651128444821, 8465639577013001, -52);
  (1923534588128994471389887621626257896, 8662829654332000, -52);
  (1968339464442050656955984777596313506, 8864612878599861, -52);
  (2014187980393200572137857307097874582, 4535548118976475, -51);
  (2061104445472491164537132135592401028, 4641194606300792, -51);
  (2109113735410707235473637410905212164, 4749301916438828, -51);
  (2158241305368858053981284683686681092, 4859927369317401, -51);
  (2208513203434824045956474947161041200, 4973129620015947, -51);
  (2259956084434372236557919677579775453, 5088968689866162, -51);
  (2312597224063949852279620245099067688, 5207505998276224, -51);
  (2366464533352561794288249075179919600, 5328804395296046, -51);
  (2421586573460618119213449972448870540, 5452928194941318, -51);
  (2477992570823419171688328788150101900, 5579943209293604, -51);
  (2535712432647371894489651822368614376, 5709916783394719, -51);
  (2594776762767244449037207232322543859, 5842917830954092, -51);
  (2655216877872658365333791152806952596, 5979016870887578, -51);
  (2717064824112671139744179527042433619, 6118286064707654, -51);
  (2780353394087041518645264659426175058, 6260799254784347, -51);
  (2845116144233275523589554723002947867, 6406632003497381, -51);
  (2911387412618755998749975333339534700, 6555861633300491, -51);
  (2979202337147165646769053637399338186, 6708567267718643, -51);
  (3048596874189135164101571717765182257, 6864829873300524, -51);
  (3119607817646759873042583421920426190, 7024732302548017, -51);
  (3192272818462182026877371754380874336, 7188359337845623, -51);
  (3266630404580689095439538505161181092, 7355797736413362, -51);
  (3342720001378659322455177971278317273, 7527136276306417, -51);
  (3420581952567490535699334941455163062, 7702465803486597, -51);
  (3500257541584339548990101320669054985, 7881879279990000, -51);
  (3581789013481109673620039757224731147, 8065471833216631, -51);
  (3665219597323422284773641877109184861, 8253340806368402, -51);
  (3750593529111140966847415256779640913, 8445585810061564, -51);
  (3837956075232968444765901949722319841, 8642308775141764, -51);
  (3927353556467250594863571677706204355, 8843614006729051, -51);
  (4018833372541829263013823947403579950, 4524804119760874, -50);
  (4112444027266091595151920046191662550, 4630200347194398, -50);
  (4208235154248227694040451751789078116, 4738051568139935, -50);
  (4306257543211724936327300383709371090, 4848414966742428, -50);
  (4406563166924703622839842864777892828, 4961349059136662, -50);
  (4509205208756530858238420478301122785, 5076913724473253, -50);
  (4614238090876440878673747647553682327, 5195170236667472, -50);
  (4721717503108782132414944499032571912, 5316181296887365, -50);
  (4831700432460590555194812623085454106, 5440011066798845, -50);
  (4944245193336819887974797893548384309, 5566725202585017, -50);
  (5059411458459363686301912821363657713, 5696390889757902, -50);
  (5177260290506427331536087876884266734, 5829076878781203, -50);
  (5297854174488642264861937292153015733, 5964853521522569, -50);
  (5421257050879559002964924729894846678, 6103792808555214, -50);
  (5547534349517691865116830740589648485, 6245968407328226, -50);
  (5676753024298218264220849960111081600, 6391455701225948, -50);
  (5808981588672954998742170573677867651, 6540331829537398, -50);
  (5944290151976949765355584531789645553, 6692675728356375, -50);
  (6082750456601504041032058012206107378, 6848568172434562, -50);
  (6224435916032889259952298743883147836, 7008091818009313, -50);
  (6369421653777084024738996959058567882, 7171331246629011, -50);
  (6517784543191395663086495915194973350, 7338373009999487, -50);
  (6669603248243562987340737890917807817, 7509305675874690, -50);
  (6824958265220582909194035892141982913, 7684219875016651, -50);
  (6983931965408848974163902312284335494, 7863208349249047, -50);
  (7146608638768420895814870164031162858, 8046366000630057, -50);
  (7313074538624837472866602183785289526, 8233789941770870, -50);
  (7483417927401595726166760869091376662, 8425579547325879, -50);
  (7657729123418208772022808261681348085, 8621836506682610, -50);
  (7836100548778111019032621697988361120, 8822664877878710, -50);
  (8018626778372000885042325535323470831, 4514085571387403, -49);
  (8205404590022885358280291256960481405, 4619232131756403, -49);
  (8396533015798741672597316210158169270, 4726827870144410, -49);
  (8592113394520829672273976029828190804, 4836929835236132, -49);
  (8792249425494782499868051672820001841, 4949596404550845, -49);
  (8997047223493286338680263725109398365, 5064887315394890, -49);
  (9206615375019714164750439522322267294, 5182863696535283, -49);
  (9421064995881906156682816799730062485, 5303588100610872, -49);
  (9640509790107454790586416493169963360, 5427124537298694, -49);
  (9865066110230982232565111189614981413, 5553538507252695, -49);
  (10094853018985709525168203981593251228, 5682897036832996, -49);
  (10329992352432313396093377377837896347, 5815268713644280, -49);
  (10570608784557752102273298078216612339, 5950723722901698, -49);
  (10816829893379310334466936183162033558, 6089333884644138, -49);
  (11068786228588049169729856657795608044, 6231172691814102, -49);
  (11326611380767856118723102554213255644, 6376315349224567, -49);
  (11590442052227201585878901823889464140, 6524838813433719, -49);
  (11860418129480246207663185487035661936, 6676821833548189, -49);
  (12136682757416727085342245118226855993, 6832344992976987, -49);
  (12419382415199223146373697090893983841, 6991490752157864, -49);
  (12708666993928172672667642473243176937, 7154343492278830, -49);
  (13004689876116444224862789269536733627, 7320989560018360, -49);
  (13307608017014411316836230980698019266, 7491517313327341, -49);
  (13617582027830009039348624355625361204, 7666017168277799, -49);
  (13934776260886819088113952602725476027, 7844581647002639, -49);
  (14259358896765670365880396275315433741, 8027305426752005, -49);
  (14591502033476565713954187231138348579, 8214285390092612, -49);
  (14931381777706921099024839350022375584, 8405620676275938, -49);
  (15279178338196025777051545446738600731, 8601412733803372, -49);
  (15635076121283923100691026775166392326, 8801765374215452, -49);
  (15999263828685968746867729350924491882, 9006784827134048, -49);
  (16371934557545333888128880062140524387, 4608289898293457, -48);
  (16753285902815225227868722868151962757, 4715630759321877, -48);
  (17143520062026748718153612571768462658, 4825471910197643, -48);
  (17542843942496517684048740193247795105, 4937871590152880, -48);
  (17951469271031545105188342859037220478, 5052889394985661, -48);
  (18369612706189919038024527253583073616, 5170586308658578, -48);
  (18797495953155614500929004861973226070, 5291024735633127, -48);
  (19235345881289944713898876216262578964, 5414268533957500, -48);
  (19683394644420509678184316726401448250, 5540383049124914, -48);
  (20141879803932013714984350372105836868, 5669435148720596, -48);
  (20611044454724911645371321355924010277, 5801493257875990, -48);
  (21091137354107075907450052909553050995, 5936627395548536, -48);
  (21582413053688586757061784737743437290, 6074909211646753, -48);
  (22085132034348244900456847972236573696, 6216412025019935, -48);
  (22599560844343720589222357375547289848, 6361210862332702, -48);
  (23125972240639502075509881251491606236, 6509382497845281, -48);
  (23664645333525626824666687753051519394, 6661005494120060, -48);
  (24215865734606186521205017925240099430, 6816160243676649, -48);
  (24779925708234198822310645482502877712, 6974929011617007, -48);
  (25357124326473719833074937923811376095, 7137395979243399, -48);
  (25947767627672448043085751123726367950, 7303647288692616, -48);
  (26552168778726585429694750928319990635, 7473771088609473, -48);
  (27170648241126716726512313471175730228, 7647857580884569, -48);
  (27803533940870426732772102695889770985, 7825999068480437, -48);
  (28451161442332761453144485130906105042, 8008290004371728, -48);
  (29113874126187567981105530634522438049, 8194827041625616, -48);
  (29792023371471657355868956074118614197, 8385709084648304, -48);
  (30485968741891365851870432379655539989, 8581037341625659, -48);
  (31196078176467601394961093319579958916, 8780915378185022, -48);
  (31922728184621831815093173645436763763, 8985449172307032, -48);
  (32666304045806903388893260853365063667, 4597373585258353, -47);
  (33427200013786602994514396414160728455, 4704460172691512, -47);
  (34205819525674904468814929714426398277, 4814041127179123, -47);
  (35002575415843395489901013206690549850, 4926174549993750, -47);
  (35817890134811115387947211274877190590, 5040919895760397, -47);
  (36652195973234228176806936971843242645, 5158338003980252, -47);
  (37505935291111420326615188969299197197, 5278491131288479, -47);
  (38379560752329680894945340696722269058, 5401442984463602, -47);
  (39273535564672513942241494078189134598, 5527258754205658, -47);
  (40188333725418296182851918274536728859, 5656005149701093, -47);
  (41124440272660898187950806459411978722, 5787750433992995, -47);
  (42082351542482278716761356918141245842, 5922564460174919, -47);
  (43062575432117235152418288635089993477, 6060518708428033, -47);
  (44065631669247025570257392246276140213, 6201686323920826, -47);
  (45092052087565285489745292579755187035, 6346142155591563, -47);
  (46142380908764401681310118874534964561, 6493962795834339, -47);
  (47217175031087819547792605590075254440, 6645226621109206, -47);
  (48317004324605889564736571628600358963, 6800013833498554, -47);
  (49442451933368204208818497136235237122, 6958406503231272, -47);
  (50594114584593626204878091812133789062, 7120488612197376, -47);
  (51772602905064260880863002967089414597, 7286346098476502, -47);
  (52978541744886392450553103117272257805, 7456066901903207, -47);
  (54212570508795586476935568498447537422, 7629741010694017, -47);
  (55475343495176915098454628605395555496, 7807460509160282, -47);
  (56767530242982175536781142000108957291, 7989319626532434, -47);
  (58089815886729553540135384537279605865, 8175414786921748, -47);
  (59442901519769485219057969516143202782, 8365844660445467, -47);
  (60827504566015043963034258922562003136, 8560710215543203, -47);
  (62244359160328862401456717634573578835, 8760114772511637, -47);
  (63694216537770827812892093788832426071, 8964164058286262, -47);
  (65177845431913937090939725749194622040, 4586483131249678, -46);
  (66696032482435597898984269704669713974, 4693316047421679, -46);
  (68249582652205788235733052715659141541, 4802637421885404, -46);
  (69839319654088455990859074518084526062, 4914505218280652, -46);
  (71466086387684185865509789437055587769, 5028978750393784, -46);
  (73130745386248335648815555032342672348, 5146118713606791, -46);
  (74834179274015937721742375288158655167, 5265987217078673, -46);
  (76577291234182041534950258210301399231, 5388647816676628, -46);
  (78361005487781071110475750174373388290, 5514165548674191, -46);
  (80186267783719969770572788547724485397, 5642606964234251, -46);
  (82054045900228814502952445764094591141, 5774040164695501, -46);
  (83965330157987395409691089298576116562, 5908534837680511, -46);
  (85921133945208239879320899490267038345, 6046162294045161, -46);
  (87922494254947807235112122725695371628, 6186995505688555, -46);
  (89970472234932813648811134044080972672, 6331109144243609, -46);
  (92066153750197102567653928417712450027, 6478579620669101, -46);
  (94210649958819018934264022391289472580, 6629485125763587, -46);
  (96405097901074526589582092128694057465, 6783905671623366, -46);
  (98650661102309797456655360292643308640, 6941923134065867, -46);
  (100948530189857052619117894209921360016, 7103621296041242, -46);
  (103299923524323020274096052162349224091, 7269085892055342, -46);
  (105706087845577513917305623181164264679, 7438404653627122, -46);
  (108168298933793110450096719432622194290, 7611667355805173, -46);
  (110687862285880427748452348168939352036, 7788965864767623, -46);
  (113266113807678451053106982726603746414, 7970394186530701, -46);
  (115904420522272019411502697039395570755, 8156048516792149, -46);
  (118604181294802401680499315261840820312, 8346027291935232, -46);
  (121366827574167217562717269174754619598, 8540431241221230, -46);
  (124193824151992231463736970908939838409, 8739363440197330, -46);
  (127086669939281733832103782333433628082, 8942929365348538, -46);
  (130046898761164356983499601483345031738, 4575618475011472, -45);
  (133076080170143967507101478986442089081, 4682198320829583, -45);
  (136175820278300108157054637558758258820, 4791260730173625, -45);
  (139347762608868123379579628817737102509, 4902863529376647, -45);
  (142593588967656614840961992740631103516, 5017065891720000, -45);
  (145915020334765642928687157109379768372, 5133928368807882, -45);
  (149313817777069203884821035899221897125, 5253512922672461, -45);
  (152791783381960186716241878457367420197, 5375882958627105, -45);
  (156350761212839074687508400529623031616, 5501103358884652, -45);
  (159992638286859687468677293509244918823, 5629240516958780, -45);
  (163719345575453246510733151808381080627, 5760362372866818, -45);
  (167532859028152159908131579868495464325, 5894538449152343, -45);
  (171435200620267323756706900894641876221, 6031839887747048, -45);
  (175428439424965176840487401932477951050, 6172339487691100, -45);
  (179514692710315387103037210181355476379, 6316111743732074, -45);
  (183696127061898977217424544505774974823, 6463232885823215, -45);
  (187974959531556123693007975816726684570, 6613780919541408, -45);
  (192353458812899447138988762162625789642, 6767835667446875, -45);
  (196833946444204997305860160849988460541, 6925478811406139, -45);
  (201418798039319909776168060488998889923, 7086793935900737, -45);
  (206110444547249102242858498357236385345, 7251866572344987, -45);
  (210911373541070645387662807479500770569, 7420784244435666, -45);
  (215824130536885746778352768160402774811, 7593636514558437, -45);
  (220851320343482456109995837323367595673, 7770515031274919, -45);
  (225995608443437220103078288957476615906, 7951513577915878, -45);
  (231259722406394899962833733297884464264, 8136728122306597, -45);
  (236646453335256040872991434298455715179, 8326256867650067, -45);
  (242158657346061886528332252055406570435, 8520200304595812, -45);
  (247799257082341853219986660405993461609, 8718661264521254, -45);
  (253571243264737091749339015223085880280, 8921744974054245, -45);
  (259477676276724480430857511237263679504, 4564779555432885, -44);
  (265521687787265875613229582086205482483, 4671106930380921, -44);
  (271706482411267018051148625090718269348, 4779910988052853, -44);
  (278035339408703976005199365317821502686, 4891249417800268, -44);
  (284511614423327614531444851309061050415, 5005181252732330, -44);
  (291138741261875566124217584729194641113, 5121766901016008, -44);
  (297920233714716459871851839125156402588, 5241068177905188, -44);
  (304859687418913324563618516549468040466, 5363148338516031, -44);
  (311960781764676028160465648397803306580, 5488072111365639, -44);
  (319227281846218147620675154030323028564, 5615905732691892, -44);
  (326663040458068735460983589291572570801, 5746716981572936, -44);
  (334272000137866029945143964141607284546, 5880575215864390, -44);
  (342058195256749058899004012346267700195, 6017551408973904, -44);
  (350025754158433755947044119238853454590, 6157718187492184, -44);
  (358178901348110741764685371890664100647, 6301149869700489, -44);
  (366521959732342224924650508910417556763, 6447922504975314, -44);
  (375059352911113990103331161662936210632, 6598113914110595, -44);
  (383795607523296666840906254947185516357, 6751803730579500, -44);
  (392735355646725167844124371185898780823, 6909073442757073, -44);
  (401883337254182947617664467543363571167, 7070006437126366, -44);
  (411244402726608939246943918988108634949, 7234688042491243, -44);
  (420823515424822574004792841151356697083, 7403205575218645, -44);
  (430625754321172564687003614380955696106, 7575648385535045, -44);
  (440656316692470227280864492058753967285, 7752107904901032, -44);
  (450920520875652812264888780191540718079, 7932677694489453, -44);
  (461423809087644258397631347179412841797, 8117453494792928, -44);
  (472171750310878167056216625496745109558, 8306533276386507, -44);
  (483170043246058924069075146690011024475, 8500017291873193, -44);
  (494424519333681757871090667322278022766, 8698008129039085, -44);
  (505941145845936546265875222161412239075, 8900610765246725, -44);
  (517726029050642637230339460074901580811, 4553966311547814, -43);
  (529785417448863995559804607182741165161, 4660041813689505, -43);
  (542125705087955566341406665742397308350, 4768588131683758, -43);
  (554753434951769236249674577265977859497, 4879662818225177, -43);
  (567675302429821726946101989597082138062, 4993324766582771, -43);
  (580898158867295251184259541332721710205, 5109634241826090, -43);
  (594429015197695093775109853595495223999, 5228652912778419, -43);
  (608275045660150453841197304427623748779, 5350443884714502, -43);
  (622443591603288609803712461143732070923, 5475071732819773, -43);
  (636942165377707965490117203444242477417, 5602602536428911, -43);
  (651778454319139427752816118299961090088, 5733103914062098, -43);
  (666960324824356007411552127450704574585, 5866645059277099, -43);
  (682495826522057882357330527156591415405, 6003296777356755, -43);
  (698393196540884900969103910028934478760, 6143131522850818, -43);
  (714660863876841858655097894370555877686, 6286223437992230, -43);
  (731307453862483384909864980727434158325, 6432648392008489, -43);
  (748341792740159007735201157629489898682, 6582484021348338, -43);
  (765772912341820870096853468567132949829, 6735809770845789, -43);
  (783610054877810739526466932147741317749, 6892706935842739, -43);
  (801862677837199726127437315881252288818, 7053258705292814, -43);
  (820540459002288571355165913701057434082, 7217550205869380, -43);
  (839653301579873982518620323389768600464, 7385668547100639, -43);
  (859211339452082484058337286114692687988, 7557702867556452, -43);
  (879224942549477532338642049580812454224, 7733744382110689, -43);
  (899704722349328562813752796500921249390, 7913886430304515, -43);
  (920661537501970997254829853773117065430, 8098224525836376, -43);
  (942106499588190217764349654316902160645, 8286856407204484, -43);
  (964050979010744754305051174014806747437, 8479882089529203, -43);
  (986506611023098002988263033330440521240, 8677403917582334, -43);
  (1009485301898570469347760081291198730469, 8879526620051552, -43);
  (1032999235243230259584379382431507110596, 4543178682534589, -42);
  (1057060878455775082329637371003627777100, 4649002908516951, -42);
  (1081682989337931076079257763922214508057, 4757292097378233, -42);
  (1106878622858804192219395190477371215820, 4868103665479764, -42);
  (1132661138076784482109360396862030029297, 4981496366581688, -42);
  (1159044205222720165693317539989948272705, 5097530322995093, -42)
].
Definition boundaries_raw : list (Z * Z * Z) := [
  (117246530458229809506033624374, 8858897370699191, -76);
  (119977552987138238648411828896, 4532623799385428, -75);
  (122772189202731624903326321761, 4638202170556083, -75);
  (125631920858122061636786680888, 4746239777911420, -75);
  (128558264220886826936283519988, 4856793904420927, -75);
  (131552770877011031067698658241, 4969923167345815, -75);
  (134617028553560716729739434212, 5085687549318729, -75);
  (137752661960517353352702590169, 5204148430147356, -75);
  (140961333652216670733422522466, 5325368619358664, -75);
  (144244744908862782325077288997, 5449412389501564, -75);
  (147604636638564196303292203570, 5576345510224867, -75);
  (151042790300389716841967342395, 5706235283149350, -75);
  (154561028848920506343202294769, 5839150577551924, -75);
  (158161217700803431425457339608, 5975161866880987, -75);
  (161845265723823494498519442314, 6114341266122524, -75);
  (165615126249004708894148525135, 6256762570036197, -75);
  (169472798106298803404726671315, 6402501292282558, -75);
  (173420326684386890187428327537, 6551634705461224, -75);
  (177459805015172090141294157853, 6704241882081850, -75);
  (181593374883534915936164405234, 6860403736489502, -75);
  (185823227962932715523304626030, 7020203067766391, -75);
  (190151606977458016168312012611, 7183724603633196, -75);
  (194580806890957241808191662512, 7351055045372699, -75);
  (199113176123851113552792706229, 7522283113799960, -75);
  (203751117798300743068313578901, 7697499596303362, -75);
  (208497091012371475393584636937, 7876797394981160, -75);
  (213353612143881795486265780942, 8060271575899500, -75);
  (218323256184620589389597288335, 8248019419497722, -75);
  (223408658105637967887852264083, 8440140472167589, -75);
  (228612514254346571314601950856, 8636736599034282, -75);
  (233937583784156748120528672777, 8837912037966490, -75);
  (239386690117418762993172377113, 4521886727422402, -74);
  (244962722442440002244194805631, 4627215000058714, -74);
  (250668637245363620085907311805, 4734996683336459, -74);
  (256507459877747426642860496468, 4845288924530819, -74);
  (262482286160635496429990864975, 4958150202047936, -74);
  (268596284026009764309573385477, 5073640356431056, -74);
  (274852695196467265445694960410, 5191820622088735, -74);
  (281254836904022356487996064586, 5312753659762095, -74);
  (287806103648953531067602703078, 5436503589748501, -74);
  (294509968999601790133521230994, 5563136025898791, -74);
  (301369987434114507353539753193, 5692718110406834, -74);
  (308389796225068802222661580245, 5825318549409059, -74);
  (315573117368002507118800647676, 5961007649413375, -74);
  (322923759554869379600680872472, 6099857354576686, -74);
  (330445620193452257780944913632, 6241941284850527, -74);
  (338142687473827148913785604553, 6387334775015467, -74);
  (346019042482949006721547899681, 6536114914624505, -74);
  (354078861368498086197443945611, 6688360588876972, -74);
  (362326417553133334978489972153, 6844152520444595, -74);
  (370766084000311562360508886235, 7003573312271611, -74);
  (379402335532895289772796964742, 7166707491372031, -74);
  (388239751205763716200580499410, 7333641553646994, -74);
  (397283016733681254350146012586, 7504464009745907, -74);
  (406536926975734262223842463424, 7679265431996128, -74);
  (416006388477621342602413845313, 7858138502425472, -74);
  (425696422073173903671746429525, 8041178061903545, -74);
  (435612165546470545020432468472, 8228481160427663, -74);
  (445758876355945943865553750957, 8420147108579814, -74);
  (456141934421983378367517272811, 8616277530182792, -74);
  (466766844979402627259219924621, 8816976416182170, -74);
  (477639241496419574104382449464, 4511175089891944, -73);
  (488764888661581740820257901275, 4616253856437935, -73);
  (500149685440278313394420282162, 4723780221881933, -73);
  (511799668202461074510169463520, 4833811198126215, -73);
  (523721013923193334855979257092, 4946405125050790, -73);
  (535920043457775774396831952595, 5061621701446088, -73);
  (548403224893138918458093244296, 5179522016665967, -73);
  (561177176977315216766406969634, 5300168583018161, -73);
  (574248672628782941284881352617, 5423625368909096, -73);
  (587624642527558186699853434026, 5549957832760795, -73);
  (601312178789934444943449456944, 5679232957717812, -73);
  (615318538728811576783521691131, 5811519287162535, -73);
  (629651148701626307247164286707, 5946886961057862, -73);
  (644317608047901030325220646244, 6085407753136298, -73);
  (659325693118515693952590844829, 6227155108955352, -73);
  (674683361398827865049881730847, 6372204184839305, -73);
  (690398755727843683805734515541, 6520631887728153, -73);
  (706480208615654274840426219556, 6672516915954641, -73);
  (722936246661443874207881622740, 6827939800971170, -73);
  (739775595074407377291399179331, 6986982950048656, -73);
  (757007182299965516987874398352, 7149730689969897, -73);
  (774640144753755243551239517696, 7316269311740848, -73);
  (792683831665864724773720977752, 7486687116343127, -73);
  (811147810037937603971100550965, 7661074461552541, -73);
  (830041869715701484778254317515, 7839523809847763, -73);
  (849376028579691605162793523881, 8022129777435331, -73);
  (869160537856857336198445219272, 8208989184416353, -73);
  (889405887555890971795605898231, 8400201106121736, -73);
  (910122812029189002837597111811, 8595866925643425, -73);
  (931322295664322717248853871624, 8796090387588823, -73);
  (953015578708127478065297976534, 9000977653087759, -73);
  (975214163226413834821386383833, 4605318678040184, -72);
  (997929819202528193178465543145, 4712590330458184, -72);
  (1021174590777946616126686980863, 4822360660647901, -72);
  (1044960802638239172451784485263, 4934687870291383, -72);
  (1069301066547783964530665516690, 5049631516762019, -72);
  (1094208288036683129990588557445, 5167252544702607, -72);
  (1119695673243458155005536532045, 5287613318339069, -72);
  (1145776735917111260244934632657, 5410777654546751, -72);
  (1172465304582298015650997438653, 5536810856686994, -72);
  (1199775529871384927582960051862, 5665779749231797, -72);
  (1227721892027316301972822421007, 5797752713195104, -72);
  (1256319208581220828126103622457, 5932799722389276, -72);
  (1285582642208865569445315826802, 6070992380526146, -72);
  (1315527708770110363616545785803, 6212403959182269, -72);
  (1346170285535609867214913715205, 6357109436648424, -72);
  (1377526619605173533527025901690, 6505185537684195, -72);
  (1409613336522166707334225224657, 6656710774198330, -72);
  (1442447449088627823250772889974, 6811765486876955, -72);
  (1476046366385642015972481239094, 6970431887781084, -72);
  (1510427903003897274298791830738, 7132794103936688, -72);
  (1545610288489205063432022947689, 7298938221939905, -72);
  (1581612177008034367194132599477, 7468952333601234, -72);
  (1618452657238231556853405405938, 7642926582653139, -72);
  (1656151262490047036001926047954, 7820953212545246, -72);
  (1694727981062991528058174137139, 8003126615353214, -72);
  (1734203266843868901874283275366, 8189543381826530, -72);
  (1774598050151720795533823171741, 8380302352602312, -72);
  (1815933748835345453592499814777, 8575504670611860, -72);
  (1858232279629326996414368650123, 8775253834707988, -72);
  (1901516069774584185089619584041, 8979655754541514, -72);
  (1945808068909572471021475828512, 4594409403357937, -71);
  (1991131761238511135527927062294, 4701426946124975, -71);
  (2037511177983003089639281110723, 4810937247689591, -71);
  (2084970910123714753935846369370, 4922998371863225, -71);
  (2133536121438822401785630894500, 5037669734937198, -71);
  (2183232561846205788016854476563, 5155012137186076, -71);
  (2234086581056379625938963437437, 5275087795104743, -71);
  (2286125142543460948585691203117, 5397960374396415, -71);
  (2339375837841567375326168320981, 5523695023729056, -71);
  (2393866901174192923887644110503, 5652358409278015, -71);
  (2449627224424399810683711242731, 5784018750073392, -71);
  (2506686372453636306738191524834, 5918745854170574, -71);
  (2565074598777474372307723371467, 6056611155663524, -71);
  (2624822861606355387816382276900, 6197687752559921, -71);
  (2685962840260097643095733854768, 6342050445538820, -71);
  (2748526951964672760336068010889, 6489775777610919, -71);
  (2812548369040223670759079052650, 6640942074702619, -71);
  (2878061036489529699082751471040, 6795629487185613, -71);
  (2945099689996018007214330716725, 6953920032373489, -71);
  (3013699874341151214524265125605, 7115897638008557, -71);
  (3083897962250687704589260582089, 7281648186761323, -71);
  (3155731173680025177067124883545, 7451259561766719, -71);
  (3229237595548687231501467503891, 7624821693220842, -71);
  (3304456201934522260172093915953, 7802426606063158, -71);
  (3381426874738278371280552486722, 7984168468769350, -71);
  (3460190424829489961336360590027, 8170143643280631, -71);
  (3540788613684981285490913083258, 8360450736096216, -71);
  (3623264175531325832367492839614, 8555190650555726, -71);
  (3707660840003115729484207269140, 8754466640339514, -71);
  (3794023355328960626903613342908, 8958384364215057, -71);
  (3882397512057636950247568180528, 4583525971029371, -70);
  (3972830167336812649380578532643, 4690290006091192, -70);
  (4065369269757334151908952091237, 4799540894997570, -70);
  (4160063884776213426024138453130, 4911336564015920, -70);
  (4256964220731747824684292058617, 5025736288689726, -70);
  (4356121655464705979599916718659, 5142800725267290, -70);
  (4457588763559459650413774323141, 5262591942862384, -70);
  (4561419344219833783675172728111, 5385173456364245, -70);
  (4667668449794026060833962432639, 5510610260113856, -70);
  (4776392414964195741043824494643, 5638968862364930, -70);
  (4887648886615816772927868572030, 5770317320547418, -70);
  (5001496854402782922185966008044, 5904725277352416, -70);
  (5117996682024610956859931448770, 6042263997657769, -70);
  (5237210139231932925043318943770, 6183006406313487, -70);
  (5359200434577758591001266780252, 6327027126807611, -70);
  (5484032248931389396339169256533, 6474402520832459, -70);
  (5611771769773151955905832882765, 6625210728772701, -70);
  (5742486726287829412848813526171, 6779531711136370, -70);
  (5876246425275582078756771153838, 6937447290950994, -70);
  (6013121787899344449434494569440, 7099041197147265, -70);
  (6153185387288115132560506470583, 7264399108953168, -70);
  (6296511487016263495988116494217, 7433608701322328, -70);
  (6443176080479009879735732835293, 7606759691420372, -70);
  (6593256931185157786558855702586, 7783943886194191, -70);
  (6746833613988278438740580494892, 7965255231049131, -70);
  (6903987557278436626299108341831, 8150789859660191, -70);
  (7064802086156542536646025381986, 8340646144943301, -70);
  (7229362466614439165595289854549, 8534924751213963, -70);
  (7397755950744073772913991793310, 8733728687560820, -70);
  (7570071822999654958120507169950, 8937163362462371, -70);
  (7746401447537552435512395176964, 4572668319838030, -69);
  (7926838316658646612462499336793, 4679179447714454, -69);
  (8111478100379375827952768696072, 4788171538470338, -69);
  (8300418697157015059540779988723, 4899702381154852, -69);
  (8493760285796916263386172052385, 5013831110897082, -69);
  (8691605378568573997259162633444, 5130618240260221, -69);
  (8894058875558909717956058982313, 5250125691326085, -69);
  (9101228120291890663650681558838, 5372416828527141, -69);
  (9313222956643226537213828275519, 5497556492243014, -69);
  (9530155787081274145378269324613, 5625611033179849, -69);
  (9752141632264138348213863838332, 5756648347550230, -69);
  (9979298192025283625850549940051, 5890737913072731, -69);
  (10211745907779465737750396181482, 6027950825809876, -69);
  (10449608026382390453968423971176, 6168359837864228, -69);
  (10693010665477838374757234285450, 6312039395952523, -69);
  (10942082880366830029356464693002, 6459065680878258, -69);
  (11196956732434581126538891693301, 6609516647923836, -69);
  (11457767359171113025965819953722, 6763472068183439, -69);
  (11724653045822981003542921640825, 6921013570858743, -69);
  (11997755298713848852313126891467, 7082224686539746, -69);
  (12277218920273161325662329701469, 7247190891493879, -69);
  (12563192085812206587195141715974, 7415999652986594, -69);
  (12855826422088656541486105522321, 7588740475657683, -69);
  (13155277087701103212648984230881, 7765504948977836, -69);
  (13461702855356098672149137152054, 7946386795810530, -69);
  (13775266196051735758786732644054, 8131481922105244, -69);
  (14096133365221666226309304992270, 8320888467747912, -69);
  (14424474490886278656024202526886, 8514706858596194, -69);
  (14760463663856420159724812390944, 8713039859726355, -69);
  (15104279030038972742987918307378, 8915992629920860, -69);
  (15456102884892051904869650358343, 4561836388712441, -68);
  (15816121770080342824908378740467, 4668095208500771, -68);
  (16184526572382315992050527686530, 4776829114158212, -68);
  (16561512624900471207052207733845, 4888095757840779, -68);
  (16947279810629916127614688625691, 5001954134595759, -68);
  (17342032668438688171709885499361, 5118464613641581, -68);
  (17745980501517207955338231717413, 5237688970376445, -68);
  (18159337488353452841859103639166, 5359690419132412, -68);
  (18582322796293271658209581009835, 5484533646692493, -68);
  (19015160697745841003863248586114, 5612284846588446, -68);
  (19458080689095723863181811030820, 5743011754197421, -68);
  (19911317612385112202312217877243, 5876783682656219, -68);
  (20375111779830031743425758361532, 6013671559611989, -68);
  (20849709101237150080457305456605, 6153747964829032, -68);
  (21335361214388225711922203453597, 6297087168671498, -68);
  (21832325618462057880168544765631, 6443765171482595, -68);
  (22340865810563797106422581628671, 6593859743880929, -68);
  (22861251425434610332889859285466, 6747450467995519, -68);
  (23393758378415673753261683209814, 6904618779661320, -68);
  (23938669011741926697777599342132, 7065448011597518, -68);
  (24496272244243998106837112427314, 7230023437591740, -68);
  (25066863724536361373316020739743, 7398432317713217, -68);
  (25650745987774743723077233714669, 7570763944579405, -68);
  (26248228616063553031130875514698, 7747109690699901, -68);
  (26859628402600976430957338547678, 7927563056923525, -68);
  (27485269519646728450393627363191, 8112219722013649, -68);
  (28125483690402234166491948763600, 8301177593378273, -68);
  (28780610364895296143794567456098, 8494536858982016, -68);
  (29450996899960179225110359912954, 8692400040466861, -68);
  (30136998743411511298209704001749, 8894872047510696, -68);
  (30838979622506877892925553075187, 4551030116725827, -67);
  (31557311736800249229572407072553, 4657037226104199, -67);
  (32292375955486870620948780530313, 4765513558263026, -67);
  (33044562019345224295786833668132, 4876516628789474, -67);
  (33814268747382785406871419375818, 4990105292980844, -67);
  (34601904248294903848528342171775, 5106339777050395, -67);
  (35407886136849812854909130832581, 5225281710060135, -67);
  (36232641755313260017740822904742, 5346994156597329, -67);
  (37076608400031155600776178182798, 5471541650212196, -67);
  (37940233553289608810134975191986, 5598990227634411, -67);
  (38823975120576371196541576313876, 5729407463786714, -67);
  (39728301673368126493805785326430, 5862862507613990, -67);
  (40653692697573344907221309929568, 5999426118746963, -67);
  (41600638847762134260241384531298, 6139170705019900, -67);
  (42569642207317474858711131568967, 6282170360862157, -67);
  (43561216554647056407867378169385, 6428500906584112, -67);
  (44575887635594596504137743231411, 6578239928577980, -67);
  (45614193442198336142685832772514, 6731466820455306, -67);
  (46676684497940267384603202360793, 6888262825142321, -67);
  (47763924149641960798570033963628, 7048711077956163, -67);
  (48876488866158171117410474737497, 7212896650684273, -67);
  (50014968544027829221859660080440, 7380906596690520, -67);
  (51179966820246114650796998013504, 7552829997072212, -67);
  (52372101392319330944499083946297, 7728758007891859, -67);
  (53592004345777580827814984276714, 7908783908509513, -67);
  (54840322489313895657457587073935, 8093003151040574, -67);
  (56117717697731524641256012353452, 8281513410965877, -67);
  (57424867262878290740356346244511, 8474414638920462, -67);
  (58762464252755817399435922521178, 8671809113688742, -67);
  (60131217878993442800279051185797, 8873801496434081, -67);
  (61531853872881151325605064705826, 4540249443095730, -66);
  (62965114870162634959881164942175, 4646005438326455, -66);
  (64431760804790105573620906387333, 4754224807137733, -66);
  (65932569311851572783390873500053, 4864964928871369, -66);
  (67468336139882786081471699457524, 4978284519405707, -66);
  (69039875572784361180793399892508, 5094243662287619, -66);
  (70648020861565423672394359311255, 5212903840589563, -66);
  (72293624666144393350018793054090, 5334327969508727, -66);
  (73977559507440744505403495967499, 5458580429725513, -66);
  (75700718229996551275270966208097, 5585727101538982, -66);
  (77464014475375531131387529804044, 5715835399797538, -66);
  (79268383166586472900888571402334, 5848974309643068, -66);
  (81114781003793751503264108926317, 5985214423087922, -66);
  (83004186971570150595407799887226, 6124627976443565, -66);
  (84937602857969155857598142489451, 6267288888621352, -66);
  (86916053785685736584459837317240, 6413272800325276, -66);
  (88940588755589093791428800805932, 6562657114157606, -66);
  (91012281202918903248375026571182, 6715521035658926, -66);
  (93132229566432272148401860789591, 6871945615303768, -66);
  (95301557870812751618178060297737, 7032013791474812, -66);
  (97521416322641376705875060348916, 7195810434437787, -66);
  (99792981920252826094110132348902, 7363422391340913, -66);
  (102117459077794670930031117883630, 7534938532262346, -66);
  (104496080263824012959901488262204, 7710449797330293, -66);
  (106930106654778387135704131871705, 7890049244940654, -66);
  (109420828803668307069828224964425, 8073832101097823, -66);
  (111969567324345811265388916933006, 8261895809904795, -66);
  (114577673591711133647789988554422, 8454340085229299, -66);
  (117246530458229677898289444737401, 8651266963573419, -66);
  (119977552987138495299394846949070, 8852780858174683, -66);
  (122772189202731738617499490651142, 4529494307183679, -65);
  (125631920858122086200742151262943, 4634999783116622, -65);
  (128558264220886704328264404928461, 4742962797286057, -65);
  (131552770877011018573962686240009, 4853440593111147, -65);
  (134617028553561007050282105623751, 4966491747381582, -65);
  (137752661960517235615122921821296, 5082176201315773, -65);
  (140961333652216662263093049922702, 5200555292342445, -65);
  (144244744908862644258706886546406, 5321691786622616, -65);
  (147604636638564204985379912926646, 5445649912328972, -65);
  (151042790300389876507677899830639, 5572495393700543, -65);
  (154561028848920512272432925549026, 5702295485890551, -65);
  (158161217700803597655673238264740, 5835119010625970, -65);
  (161845265723823159920505276865299, 5971036392697765, -65);
  (165615126249004691741731343235244, 6110119697300973, -65);
  (169472798106298978317030279328037, 6252442668244692, -65);
  (173420326684386902045889589096817, 6398080767051977, -65);
  (177459805015171910146792866314058, 6547111212970550, -65);
  (181593374883534528418591036391661, 6699613023915515, -65);
  (185823227962932899541212417027225, 6855667058365623, -65);
  (190151606977458396486105329792338, 7015356058235557, -65);
  (194580806890957258960608844411411, 7178764692746777, -65);
  (199113176123851128799385756806828, 7345979603320274, -65);
  (203751117798300337763048317718528, 7517089449514987, -65);
  (208497091012371283964138557465162, 7692184956036282, -65);
  (213353612143882243566694878467160, 7871358960839372, -65);
  (218323256184620829523437834929211, 8054706464353253, -65);
  (223408658105637964287962238252305, 8242324679851161, -65);
  (228612514254346354050650980127557, 8434313084994408, -65);
  (233937583784156764637671144235753, 8630773474576651, -65);
  (239386690117419280530303149490123, 8831810014496898, -65);
  (244962722442439737122882315034644, 4518764648494833, -64);
  (250668637245363634061950941500641, 4624020198570761, -64);
  (256507459877747159403965637736178, 4731727465362123, -64);
  (262482286160635523535045177112579, 4841943556687438, -64);
  (268596284026010028583852928818487, 4954726910577208, -64);
  (274852695196467304832727007735116, 5070137326258531, -64);
  (281254836904022633044253343115315, 5188235995861426, -64);
  (287806103648952961437945674560979, 5309085536863760, -64);
  (294509968999601785474840021095133, 5432750025291788, -64);
  (301369987434114841931553918641384, 5559295029694180, -64);
  (308389796225068792481782686820679, 5688787645907284, -64);
  (315573117368002180587599481143002, 5821296532630243, -64);
  (322923759554868733314542117440737, 5956891947828783, -64);
  (330445620193452595323574394470256, 6095645785986849, -64);
  (338142687473827854068714193758183, 6237631616226055, -64);
  (346019042482948997827701953511337, 6382924721312993, -64);
  (354078861368498087891509840119397, 6531602137575168, -64);
  (362326417553132586624881072978610, 6683742695746661, -64);
  (370766084000311176537001411901429, 6839427062765238, -64);
  (379402335532896047443768283713439, 6998737784543013, -64);
  (388239751205764118541230445202928, 7161759329733400, -64);
  (397283016733681292043112165401908, 7328578134517488, -64);
  (406536926975733842095500625291038, 7499282648433711, -64);
  (416006388477621342602413845312981, 7673963381274875, -64);
  (425696422073174789244692783896085, 7852712951077697, -64);
  (435612165546470130397804787492078, 8035626133230132, -64);
  (445758876355945965041377432314107, 8222799910722475, -64);
  (456141934421982900640935021385758, 8414333525569124, -64);
  (466766844979402660293504867539127, 8610328531427901, -64);
  (477639241496420055219096489906860, 8810888847445212, -64);
  (488764888661581751831686215581385, 4508060406677671, -63);
  (500149685440278834319682843556620, 4613066622931580, -63);
  (511799668202461092297861355859823, 4720518748170132, -63);
  (523721013923193322997517995531780, 4830473754932412, -63);
  (535920043457775306834645068221334, 4942989942818441, -63);
  (548403224893138983679630182876963, 5058126969400359, -63);
  (561177176977314690758946724713496, 5175945881853668, -63);
  (574248672628782934508617774582717, 5296509149325289, -63);
  (587624642527558851620717028652052, 5419880696055470, -63);
  (601312178789934468660371980064383, 5546125935271301, -63);
  (615318538728811567466159271333481, 5675311803869663, -63);
  (629651148701626376703865961559359, 5807506797908069, -63);
  (644317608047901028631154751735721, 5942781008922166, -63);
  (659325693118514399686247440257603, 6081206161089199, -63);
  (674683361398827128978250566859742, 6222855649257127, -63);
  (690398755727843638912988311062691, 6367804577859524, -63);
  (706480208615653504887477165397058, 6516129800736947, -63);
  (722936246661443852185024994128071, 6667909961885908, -63);
  (739775595074406659007459907684279, 6823225537156884, -63);
  (757007182299965458542601037805753, 6982158876923727, -63);
  (774640144753753630800507945508571, 7144794249746907, -63);
  (792683831665864729008885714023336, 7311217887053835, -63);
  (811147810037935942939490985281736, 7481518028859888, -63);
  (830041869715700611487285698331107, 7655784970554448, -63);
  (849376028579691558575981424894508, 7834111110776690, -63);
  (869160537856856390062643136218412, 8016591000406586, -63);
  (889405887555890992124396632334538, 8203321392697008, -63);
  (910122812029188110911903653033050, 8394401294573649, -63);
  (931322295664322721484018607895905, 8589932019129710, -63);
  (953015578708125456197652880518945, 8790017239343496, -63);
  (975214163226412818381849678672779, 8994763043047225, -63);
  (997929819202526173851919288892987, 4602138994588061, -62);
  (1021174590777945570888030069056640, 4709336582663961, -62);
  (1044960802638239018291788084979999, 4819031123331428, -62);
  (1069301066547782841364977457487839, 4931280778087904, -62);
  (1094208288036682989383119313231418, 5046145063186139, -62);
  (1119695673243457055556770995963234, 5163684881190492, -62);
  (1145776735917111363582954197681829, 5283962553268312, -62);
  (1172465304582295721885776274007185, 5407041852233382, -62);
  (1199775529871383679056395799022994, 5532988036359171, -62);
  (1227721892027316139342496548181316, 5661867883979593, -62);
  (1256319208581219452544597281473671, 5793749728895771, -62);
  (1285582642208865688029928442404071, 5928703496607565, -62);
  (1315527708770108938907128504069988, 6066800741388928, -62);
  (1346170285535609962082603807687065, 6208114684226977, -62);
  (1377526619605170784058079114231532, 6352720251644709, -62);
  (1409613336522166785261256372052685, 6500694115428057, -62);
  (1442447449088624924704027385757854, 6652114733278263, -62);
  (1476046366385640531970757649560255, 6807062390411208, -62);
  (1510427903003897301403846142875409, 6965619242125672, -62);
  (1545610288489203442210961902958388, 7127869357363181, -62);
  (1581612177008034350253473654390746, 7293898763282455, -62);
  (1618452657238230027111902664671561, 7463795490872199, -62);
  (1656151262490047080047639305178109, 7637649621626217, -62);
  (1694727981062988048446826816473276, 7815553335305857, -62);
  (1734203266843867231525311289885849, 7997600958814963, -62);
  (1774598050151717258324235437783045, 8183889016213179, -62);
  (1815933748835343603672543011384732, 8374516279894386, -62);
  (1858232279629327098058322320639490, 8569583822957020, -62);
  (1901516069774582175927468696841061, 8769195072794438, -62);
  (1945808068909572535395979819838885, 8973455865933471, -62);
  (1991131761238509011169295348508967, 4591237252075166, -61);
  (2037511177983003431840591801460505, 4698180905946867, -61);
  (2084970910123710562816823355092311, 4807615597522671, -61);
  (2133536121438820050422169316561849, 4919599350524602, -61);
  (2183232561846206072619924754008025, 5034191540220778, -61);
  (2234086581056377203424734290138076, 5151452924906970, -61);
  (2286125142543460938421295836064928, 5271445678121499, -61);
  (2339375837841565098501606101422112, 5394233421610401, -61);
  (2393866901174192696882814246350790, 5519881259060561, -61);
  (2449627224424394660723391936585358, 5648455810618535, -61);
  (2506686372453636232199292166455962, 5780025248213451, -61);
  (2565074598777469100374659660701582, 5914659331702648, -61);
  (2624822861606352416424803308814262, 6052429445859291, -61);
  (2685962840260097683753315322974231, 6193408638221504, -61);
  (2748526951964670120981404366489187, 6337671657823157, -61);
  (2812548369040223511516884968841623, 6485294994826776, -61);
  (2878061036489526578613373786197371, 6636356921079693, -61);
  (2945099689996017854748400210951331, 6790937531614735, -61);
  (3013699874341144949868587232799655, 6949118787117717, -61);
  (3083897962250684889051743908794379, 7110984557384098, -61);
  (3155731173680018444849260106366273, 7276620665787796, -61);
  (3229237595548683972118686469343629, 7446114934785971, -61);
  (3304456201934522375368574742537930, 7619557232483553, -61);
  (3381426874738275179660407232518082, 7797039520282561, -61);
  (3460190424829490303537671280764698, 7978655901641242, -61);
  (3540788613684977409468146447579784, 8164502671968952, -61);
  (3623264175531325757828593481235657, 8354678369683326, -61);
  (3707660840003108079082627668299210, 8549283828456539, -61);
  (3794023355328956896570513634969757, 8748422230678758, -61);
  (3882397512057637282284483504213313, 8952199162166741, -61);
  (3972830167336808583622431712001344, 4580361334073425, -60);
  (4065369269757334626247402553644861, 4687051655271065, -60);
  (4160063884776209197635665759662515, 4796227113296792, -60);
  (4256964220731747350345841596208629, 4907945594423560, -60);
  (4356121655464696533488488938701266, 5022266333268827, -60);
  (4457588763559459758833991571691513, 5139249944201547, -60);
  (4561419344219824235919791277638069, 5258958453480697, -60);
  (4667668449794021290344403496419545, 5381455332142432, -60);
  (4776392414964195781701405962849094, 5506805529653252, -60);
  (4887648886615812530986868722493455, 5635075508347083, -60);
  (5001496854402783139026400505144920, 5766333278664469, -60);
  (5117996682024605718808185628176943, 5900648435212659, -60);
  (5237210139231933229975179955317799, 6038092193665515, -60);
  (5359200434577747647335588254691174, 6178737428523045, -60);
  (5484032248931383982104570407045685, 6322658711750442, -60);
  (5611771769773140836057301328310132, 6469932352317078, -60);
  (5742486726287823924075315318305002, 6620636436656605, -60);
  (5876246425275582010994135373493918, 6774850870069330, -60);
  (6013121787899338398231119384718113, 6932657419089119, -60);
  (6153185387288115024140289222032152, 7094139754837078, -60);
  (6296511487016257478666059199667870, 7259383497385079, -60);
  (6443176080479009852630678523155439, 7428476261152707, -60);
  (6593256931185144213702908899676913, 7601507701361499, -60);
  (6746833613988271506622940165698310, 7778569561571409, -60);
  (6903987557278436389129883110626906, 7959755722324405, -60);
  (7064802086156535265715206151071470, 8145162250921184, -60);
  (7229362466614438521850249941280708, 8334887452357385, -60);
  (7397755950744066590074599076842787, 8529031921446105, -60);
  (7570071822999654802266444875158413, 8727698596154659, -60);
  (7746401447537536524845513952186593, 8930992812183634, -60);
  (7926838316658647506929291637334245, 4569511179408647, -59);
  (8111478100379359429394909852817364, 4675948768037430, -59);
  (8300418697157006114872856983311067, 4784865606596530, -59);
  (8493760285796916886802421231550397, 4896319444235432, -59);
  (8691605378568563466945562367982347, 5010369375254116, -59);
  (8894058875558909921243966323345376, 5127075870435630, -59);
  (9101228120291880024916864044826070, 5246500809108530, -59);
  (9313222956643227648521055073160824, 5368707511956069, -59);
  (9530155787081254561976528805189446, 5493760774589685, -59);
  (9752141632264128834339800278030452, 5621726901904516, -59);
  (9979298192025263039561799871535186, 5752673743235077, -59);
  (10211745907779455275199431696364627, 5886670728329951, -59);
  (10449608026382390182917880849799985, 6023788904164285, -59);
  (10693010665477828413649774574878393, 6164100972609880, -59);
  (10942082880366825123341634196094674, 6307681328982671, -59);
  (11196956732434570555567709959632339, 6454606101488115, -59);
  (11457767359171106696935638069589913, 6604953191585386, -59);
  (11724653045822961555666452682089584, 6758802315291730, -59);
  (11997755298713837224244826984431711, 6916235045448964, -59);
  (12277218920273162694467572464418481, 7077334854974492, -59);
  (12563192085812194959126841808938480, 7242187161119714, -59);
  (12855826422088656446618415429838933, 7410879370759456, -59);
  (13155277087701089389071285040699877, 7583500926736160, -59);
  (13461702855356092248251265175440494, 7760143355283717, -59);
  (13775266196051716080517302032149018, 7940900314555891, -59);
  (14096133365221660480037790819096699, 8125867644285067, -59);
  (14424474490886256619615046759008692, 8315143416597833, -59);
  (14760463663856405319707576495602552, 8508827988014010, -59);
  (15104279030038973014038461428754090, 8707024052657090, -59);
  (15456102884892033988428750035382109, 8909836696703976, -59);
  (15816121770080342201492129561302136, 4558686727051534, -58);
  (16184526572382298970076419664110290, 4664872181795124, -58);
  (16561512624900461693178144173543842, 4773531013516383, -58);
  (16947279810629888724404779054566461, 4884720834566163, -58);
  (17342032668438672748933981893060263, 4998500599259352, -58);
  (17745980501517183425264079232874792, 5114930635133240, -58);
  (18159337488353435169363692125443777, 5234072674933991, -58);
  (18582322796293269245859747229587811, 5355989889348137, -58);
  (19015160697745822626636424956814153, 5480746920496524, -58);
  (19458080689095713644576335354940966, 5608409916208416, -58);
  (19911317612385091846416429461896769, 5739046565093958, -58);
  (20375111779830021307979848188551841, 5872726132433580, -58);
  (20849709101237116903870827400169219, 6009519496903342, -58);
  (21335361214388202238945169142425584, 6149499188155753, -58);
  (21832325618462058991475771563273156, 6292739425275972, -58);
  (22340865810563773768970818878187856, 6439316156133713, -58);
  (22861251425434610251574696349052829, 6589307097651874, -58);
  (23393758378415650117654323025817575, 6742791777013001, -58);
  (23938669011741915693125548614261788, 6899851573825698, -58);
  (24496272244243961352383465168713883, 7060569763273173, -58);
  (25066863724536349311566851838506409, 7225031560266810, -58);
  (25650745987774715289875260282315139, 7393324164628317, -58);
  (26248228616063538909397578891002922, 7565536807324118, -58);
  (26859628402600990715320961044199066, 7741760797776884, -58);
  (27485269519646700342452305676488322, 7922089572278946, -58);
  (28125483690402248992956657502872986, 8106618743533474, -58);
  (28780610364895264918771999873570167, 8295446151349616, -58);
  (29450996899960179414845740097916860, 8488671914518419, -58);
  (30136998743411483325793653875734890, 8686398483897156, -58);
  (30838979622506864503028722879207635, 8888730696730127, -58);
  (31557311736800215673515168646190432, 4547887916117377, -57);
  (32292375955486854466336410496296594, 4653821834241234, -57);
  (33044562019345240233558769205046701, 4762223270302223, -57);
  (33814268747382754398689286290391465, 4873149700176601, -57);
  (34601904248294901300653236830839887, 4986659938525776, -57);
  (35407886136849774094681464475797839, 5102814169980595, -57);
  (36232641755313259313009410789163667, 5221673981052079, -57);
  (37076608400031116352657534207537537, 5343302392785342, -57);
  (37940233553289584578216420140961418, 5467763894174226, -57);
  (38823975120576392772164808775414713, 5595124476354216, -57);
  (39728301673368104918182552864891477, 5725451667591784, -57);
  (40653692697573365344432261281326646, 5858814569088834, -57);
  (41600638847762091976356657596625155, 5995283891620990, -57);
  (42569642207317480442352319869314670, 6134931993029451, -57);
  (43561216554647008702971788807190023, 6277832916586040, -57);
  (44575887635594599323063391693722224, 6424062430251934, -57);
  (45614193442198289196731764150172239, 6573698066850878, -57);
  (46676684497940240659019650593108963, 6726819165178044, -57);
  (47763924149641985572589675257404451, 6883506912066569, -57);
  (48876488866158120105698259294513264, 7043844385433853, -57);
  (50014968544027857411116144703555619, 7207916598330590, -57);
  (51179966820246058922805332258576527, 7375810544015824, -57);
  (52372101392319334034475275529985083, 7547615242081894, -57);
  (53592004345777530249783637827931670, 7723421785653814, -57);
  (54840322489313864107174367745756172, 7903323389688056, -57);
  (56117717697731467341171196494542528, 8087415440396356, -57);
  (57424867262878265261605292835156433, 8275795545820760, -57);
  (58762464252755851334963921317466884, 8468563587586667, -57);
  (60131217878993385717034669823988224, 8665821773861399, -57);
  (61531853872881153710849844173935708, 8867674693546348, -57);
  (62965114870162569582490164066257421, 4537114685865674, -56);
  (64431760804790100261030261208361480, 4642797663220442, -56);
  (65932569311851513260691604045860004, 4750942313350942, -56);
  (67468336139882748025975445216317894, 4861605975982133, -56);
  (69039875572784403789938778572832234, 4974847326452756, -56);
  (70648020861565394290515484954084968, 5090726406825743, -56);
  (72293624666144432056036350786598632, 5209304657723369, -56);
  (73977559507440671104916418698849156, 5330644950903816, -56);
  (75700718229996549757387924728391226, 5454811622596662, -56);
  (77464014475375445045735034454992274, 5581870507614777, -56);
  (79268383166586478538739868326956639, 5711888974260809, -56);
  (81114781003793670621782041507685790, 5844935960046793, -56);
  (83004186971570109720985897183709312, 5981082008245666, -56);
  (84937602857969210501387635758874239, 6120399305294293, -56);
  (86916053785685648547243431494280230, 6262961719067646, -56);
  (88940588755589133906909182769595645, 6408844838044540, -56);
  (91012281202918807188062544355489081, 6558126011385663, -56);
  (93132229566432273015763598777994048, 6710884389945086, -56);
  (95301557870812653172620798613934312, 6867200968237114, -56);
  (97521416322641329976761426223674789, 7027158627380648, -56);
  (99792981920252724070685701462934958, 7190842179043853, -56);
  (102117459077794611732592500175087480, 7358338410412443, -56);
  (104496080263823967748670895616669441, 7529736130205361, -56);
  (106930106654778311892073361377697438, 7705126215762352, -56);
  (109420828803668310214014525172387948, 7884601661228343, -56);
  (111969567324345736780699667178851087, 8068257626860146, -56);
  (114577673591711129419401515860954532, 8256191489481737, -56);
  (117246530458229650251134046357037732, 8448502894114665, -56);
  (119977552987138427753599501102144131, 8645293806811209, -56);
  (122772189202731682455826955902011832, 8846668568718119, -56);
  (125631920858121998163525745439983439, 4526366975699823, -55);
  (128558264220886619977335385556216352, 4631799606724662, -55);
  (131552770877010921646288466035912279, 4739688079210101, -55);
  (134617028553561002279792546687531285, 4850089597052326, -55);
  (137752661960517192030195587904017884, 4963062696597433, -55);
  (140961333652216663780976091402408201, 5078667277678169, -55);
  (144244744908862604360066939079842996, 5196964635373647, -55);
  (147604636638564129524908707935537677, 5318017492508759, -55);
  (151042790300389806468217557267053053, 5441890032910684, -55);
  (154561028848920395395438731611648109, 5568647935439987, -55);
  (158161217700803519159435950314218644, 5698358408814421, -55);
  (161845265723822989700764196641102899, 5831090227243905, -55);
  (165615126249004651626250961271580309, 5966913766895480, -55);
  (169472798106298894182941694452892989, 6105901043207704, -55);
  (173420326684386810756066665817343164, 6248125749074193, -55);
  (177459805015171806497065176699834410, 6393663293916549, -55);
  (181593374883534441899257672048406675, 6542590843667492, -55);
  (185823227962932768786430415275390260, 6694987361685174, -55);
  (190151606977458226266364249568141531, 6850933650620655, -55);
  (194580806890957191956914584807236679, 7010512395260522, -55);
  (199113176123850932341952102433424443, 7173808206367448, -55);
  (203751117798300268590949713143345434, 7340907665541977, -55);
  (208497091012371155160920466187235434, 7511899371129177, -55);
  (213353612143882126472860250032681506, 7686873985194695, -55);
  (218323256184620645425908946890558582, 7865924281594967, -55);
  (223408658105637841773116747390304226, 8049145195167145, -55);
  (228612514254346171904686002562812064, 8236633872064845, -55);
  (233937583784156521993224941979860887, 8428489721266252, -55);
  (239386690117419198564618909585988149, 8624814467282124, -55);
  (244962722442439606584940747779910453, 8825712204091466, -55);
  (250668637245363534749031941828434356, 4515644725166757, -54);
  (256507459877747034937556236400268972, 4620827602892696, -54);
  (262482286160635402971763596724485978, 4728460504577574, -54);
  (268596284026009823886482763555250131, 4838600498610551, -54);
  (274852695196466989546735248950426467, 4951305982674341, -54);
  (281254836904022420540627535956446081, 5066636714708420, -54);
  (287806103648952649187719998735701665, 5184653844593510, -54);
  (294509968999601745576200073628569953, 5305419946574011, -54);
  (301369987434114194879697379292338155, 5428999052435711, -54);
  (308389796225068624213605517070391215, 5555456685456329, -54);
  (315573117368002031835061416131793521, 5684859895146719, -54);
  (322923759554869072019300801912322640, 5817277292801552, -54);
  (330445620193452305191073037349269725, 5952779087877777, -54);
  (338142687473826974997592742511187680, 6091437125220741, -54);
  (346019042482948901984229905792744830, 6233324923157218, -54);
  (354078861368497754824602452572435141, 6378517712475744, -54);
  (362326417553133106608242997026536614, 6527092476315108, -54);
  (370766084000311024748697263930807821, 6679127990981675, -54);
  (379402335532895207403925041944603436, 6834704867717771, -54);
  (388239751205763816699345625238493085, 6993905595442768, -54);
  (397283016733681049181825528648914769, 7156814584489730, -54);
  (406536926975734180800259309762623161, 7323518211361052, -54);
  (416006388477620892007990960337338038, 7494104864526237, -54);
  (425696422073173985634042537640198134, 7668664991286799, -54);
  (435612165546469976007415425556246191, 7847291145732548, -54);
  (445758876355945854452755838792654686, 8030078037814915, -54);
  (456141934421983474834405569708906114, 8217122583563608, -54);
  (466766844979402351079045274673262611, 8408523956472554, -54);
  (477639241496418898158538013376528397, 8604383640083194, -54);
  (488764888661581187179194785130675882, 8804805481792316, -54);
  (500149685440278490844434600148815662, 4504947873956618, -53);
  (511799668202461477406473022710997611, 4609881590009898, -53);
  (523721013923193146055723445897456259, 4717259526301182, -53);
  (535920043457774220030387368751689792, 4827138616033624, -53);
  (548403224893138641071743677457561716, 4939577118555035, -53);
  (561177176977314395855955808656290174, 5054634650247720, -53);
  (574248672628783540794472628476796672, 5172372216137983, -53);
  (587624642527558305182822095957817510, 5292852242241665, -53);
  (601312178789932816336261112155625597, 5416138608663365, -53);
  (615318538728811370575044747965876013, 5542296683466466, -53);
  (629651148701625751336052871920401230, 5671393357332093, -53);
  (644317608047901946299873543466674164, 5803497079025561, -53);
  (659325693118514855051159884169464931, 5938677891688675, -53);
  (674683361398826342281154211377725005, 6077007469977656, -53);
  (690398755727843815854782860697014257, 6218559158065943, -53);
  (706480208615653748616125540138455108, 6363408008532177, -53);
  (722936246661445180983207592362305149, 6511630822154219, -53);
  (739775595074406711049164186988491565, 6663306188629770, -53);
  (757007182299964109795098465838236734, 6818514528245815, -53);
  (774640144753754089634867341374047101, 6977338134518468, -53);
  (792683831665864535587218142609344795, 7139861217826009, -53);
  (811147810037937788685269424604484811, 7306169950058501, -53);
  (830041869715701041698707740579266101, 7476352510307082, -53);
  (849376028579690411923763804225018248, 7650499131617851, -53);
  (869160537856856429961283083684975281, 7828702148834557, -53);
  (889405887555891117024486902664648369, 8011056047555673, -53);
  (910122812029189542926133071887306869, 8197657514232092, -53);
  (931322295664322563624182294006459415, 8388605487431356, -53);
  (953015578708124588835914892115397379, 8584001210296375, -53);
  (975214163226413299767614262236747891, 8783948284225810, -53);
  (997929819202526879884374011453473940, 8988552723804813, -53);
  (1021174590777947699393735092598944902, 4598961506507784, -52);
  (1044960802638239316664225952990818769, 4706085081378349, -52);
  (1069301066547781120519289288495201617, 4815703884851461, -52);
  (1094208288036682796828813479805830866, 4927876038267713, -52);
  (1119695673243457090251240515499375761, 5042661016787590, -52);
  (1145776735917112931772976480715442449, 5160119680926093, -52);
  (1172465304582296363733462385425809771, 5280314308821665, -52);
  (1199775529871382362401277532626409084, 5403308629256997, -52);
  (1227721892027316519246937787102069706, 5529167855448823, -52);
  (1256319208581220037146408685657661408, 5657958719624779, -52);
  (1285582642208868087152495718328282237, 5789749508405836, -52);
  (1315527708770108938907128504069987684, 5924610099012625, -52);
  (1346170285535607469284968829015269876, 6062611996315396, -52);
  (1377526619605171642746199722751043737, 6203828370746790, -52);
  (1409613336522166360254004757734946907, 6348334097097710, -52);
  (1442447449088628097513264947338029742, 6496205794217068, -52);
  (1476046366385641128715633385581895709, 6647521865635948, -52);
  (1510427903003895178102311547263525426, 6802362541138342, -52);
  (1545610288489203565376328697311691940, 6960809919299982, -52);
  (1581612177008034469949393496790435165, 7122948011018023, -52);
  (1618452657238232728076354760560207069, 7288862784054894, -52);
  (1656151262490046738307114537747111171, 7458642208619351, -52);
  (1694727981062986277294157844153232872, 7632376304009618, -52);
  (1734203266843867830004910501884296536, 7810157186342740, -52);
  (1774598050151718453548710385803133249, 7992079117395688, -52);
  (1815933748835347305572440745891071856, 8178238554584378, -52);
  (1858232279629327576842001690238248557, 8368734202106467, -52);
  (1901516069774578987505719851469621062, 8563667063275804, -52);
  (1945808068909572030591448310588020831, 8763140494075653, -52);
  (1991131761238509323419521024334244430, 8967260257959310, -52);
  (2037511177983005961067419775645248592, 4588067290963743, -51);
  (2084970910123711718142658355645835400, 4694937106955736, -51);
  (2133536121438817545481470006052404642, 4804296240746676, -51);
  (2183232561846206731814845625194720924, 4916202675996855, -51);
  (2234086581056378140175411317613907158, 5030715746979465, -51);
  (2286125142543465216249387594871222973, 5147896170040536, -51);
  (2339375837841564997887644494767300785, 5267806075791407, -51);
  (2393866901174188210887905370327644050, 5390509042051319, -51);
  (2449627224424396398916314865346066654, 5516070127557167, -51);
  (2506686372453635680557226805831305683, 5644555906458447, -51);
  (2565074598777474790267660864628851414, 5776034503615880, -51);
  (2624822861606353363583821192150935531, 5910575630721966, -51);
  (2685962840260093908995031597441993654, 6048250623263179, -51);
  (2748526951964670228534259877051226795, 6189132478342927, -51);
  (2812548369040224205406275359564460814, 6333295893385525, -51);
  (2878061036489531154813903413014486432, 6480817305741898, -51);
  (2945099689996017122695093348738737404, 6631774933217513, -51);
  (3013699874341142059819276255439035594, 6786248815544639, -51);
  (3083897962250685687024542858125641942, 6944320856820410, -51);
  (3155731173680020429372916623833589256, 7106074868933399, -51);
  (3229237595548690720193008019123226404, 7271596616001940, -51);
  (3304456201934523384977637761039659381, 7440973859847222, -51);
  (3381426874738270083042834812658838928, 7614296406525927, -51);
  (3460190424829489241886903982958756387, 7791656153946523, -51);
  (3540788613684977548246024525724351406, 7973147140594680, -51);
  (3623264175531331066082429970265366137, 8158865595393885, -51);
  (3707660840003109914420065251761116087, 8348909988727093, -51);
  (3794023355328952185061552881961688399, 8543381084647214, -51);
  (3882397512057638166993456252384930849, 8742381994303460, -51);
  (3972830167336810713862860211520455778, 8946018230612163, -51);
  (4065369269757341363913383247563615441, 4577198882100657, -50);
  (4160063884776208809057607140857726336, 4683815540328898, -50);
  (4256964220731740411451937688980251551, 4792915619554250, -50);
  (4356121655464699315984944405499845743, 4904556966082842, -50);
  (4457588763559458655549860850442200899, 5018798773634322, -50);
  (4561419344219834748344055697089061141, 5135701614727255, -50);
  (4667668449794024176924267521826550364, 5255327472795347, -50);
  (4776392414964188759540775208733975887, 5377739775051996, -50);
  (4887648886615812315881157701369374990, 5503003426120198, -50);
  (5001496854402784464355136151425540447, 5631184842445772, -50);
  (5117996682024613441797100676922127604, 5762351987512371, -50);
  (5237210139231931904646444309037178755, 5896574407876478, -50);
  (5359200434577742200303873687516897917, 6033923270042030, -50);
  (5484032248931386632762041699606925249, 6174471398193794, -50);
  (5611771769773143958559558086562901735, 6318293312809650, -50);
  (5742486726287835629989331209799274802, 6465465270172479, -50);
  (5876246425275583717962035734672099352, 6616065302802082, -50);
  (6013121787899328829496425896650180221, 6770173260829207, -50);
  (6153185387288114149839657329721376300, 6927870854333083, -50);
  (6296511487016257291315923794172704220, 7089241696665116, -50);
  (6443176080479020129132550209760665894, 7254371348781952, -50);
  (6593256931185148772556203766725957394, 7423347364610844, -50);
  (6746833613988265199168381514027714729, 7596259337472072, -50);
  (6903987557278440156949272932251915336, 7773198947582431, -50);
  (7064802086156539040473489876603707671, 7954260010665223, -50);
  (7229362466614453808233520248904824257, 8139538527692776, -50);
  (7397755950744068442759271420072764158, 8329132735787214, -50);
  (7570071822999643096352428983664140105, 8523143160307271, -50);
  (7746401447537542672705512813990935683, 8721672668148087, -50);
  (7926838316658646910184415901312604547, 8924826522282513, -50);
  (8111478100379379441164928721264004707, 4566356218786564, -49);
  (8300418697157009972897867555730044842, 4672720318941926, -49);
  (8493760285796904341282242967281490564, 4781561957261157, -49);
  (8691605378568565853925065312068909407, 4892938843021599, -49);
  (8894058875558913612735523201990872622, 5006910029722297, -49);
  (9101228120291896317439750418998301029, 5123535946395058, -49);
  (9313222956643226524420242640189826488, 5242878429644598, -49);
  (9530155787081246998582173546310514212, 5365000756435235, -49);
  (9752141632264132553586932772304862738, 5489967677641131, -49);
  (9979298192025270353155974589753895998, 5617845452378009, -49);
  (10211745907779476993937350925989449024, 5748701883134730, -49);
  (10449608026382396275266728480346500874, 5882606351722938, -49);
  (10693010665477812537460522435139864683, 6019629856064327, -49);
  (10942082880366831076912603748496621847, 6159845047834643, -49);
  (11196956732434570014333985454868525267, 6303326270984487, -49);
  (11457767359171130649997394357342272997, 6450149601157617, -49);
  (11724653045822968522315932204946875572, 6600392886027084, -49);
  (11997755298713824956280404876451939344, 6754135786571247, -49);
  (12277218920273169189272266521584242582, 6911459819311031, -49);
  (12563192085812200815553296706639230251, 7072448399530974, -49);
  (12855826422088682647881796583533287048, 7237186885507296, -49);
  (13155277087701088944982075190637260675, 7405762623765781, -49);
  (13461702855356078245563367090653628111, 7578264995394247, -49);
  (13775266196051722644710935128387063742, 7754785463433491, -49);
  (14096133365221666267075306677725166082, 7935417621372139, -49);
  (14424474490886286304203167674131691456, 8120257242771338, -49);
  (14760463663856413063513173256069421768, 8309402332044936, -49);
  (15104279030038956221915213973261415958, 8502953176422930, -49);
  (15456102884892034765584867272991687059, 8701012399124977, -49);
  (15816121770080350472653663018718361855, 8903685013772532, -49);
  (16184526572382331721655646106228232384, 4555539240034310, -48);
  (16561512624900469603517194627784192562, 4661651380387095, -48);
  (16947279810629861884763158741407096386, 4770235190006011, -48);
  (17342032668438680076405944419093430042, 4881348241464213, -48);
  (17745980501517191640914461459033191204, 4995049448372307, -48);
  (18159337488353472167545987758785486221, 5111399096615236, -48);
  (18582322796293279765222905552946031094, 5230458876316543, -48);
  (19015160697745791651414037914946675301, 5352291914547378, -48);
  (19458080689095723414538952056318521500, 5476962808797284, -48);
  (19911317612385090569659951142966747284, 5604537661224568, -48);
  (20375111779830064051566296257078647614, 5735084113704680, -48);
  (20849709101237127839567619957961142063, 5868671383694673, -48);
  (21335361214388179007528378861024975777, 6005370300933346, -48);
  (21832325618462071759040554752573370934, 6145253344996070, -48);
  (22340865810563784066289372276514768600, 6288394683724332, -48);
  (22861251425434659267921233549714088440, 6434870212550672, -48);
  (23393758378415650867054864647798240185, 6584757594739259, -48);
  (23938669011741890102484831004403531551, 6738136302564151, -48);
  (24496272244243971982768925954587757587, 6895087659446461, -48);
  (25066863724536361246464366558939218521, 7055694883073060, -48);
  (25650745987774755008103966247290372849, 7220043129519852, -48);
  (26248228616063538964908730122260749340, 7388219538402459, -48);
  (26859628402600950636269772076047956944, 7560313279078977, -48);
  (27485269519646699620807339670136570930, 7736415597928658, -48);
  (28125483690402248271311691496521234512, 7916619866731908, -48);
  (28780610364895323982636909931898117065, 8101021632177376, -48);
  (29450996899960180996913550188764929771, 8289718666521894, -48);
  (30136998743411421486371182254515588284, 8482811019430799, -48);
  (30838979622506862199315946782007813454, 8680401071025514, -48);
  (31557311736800215840048622339963912964, 8882593586166752, -48);
  (32292375955486903649216401390731334686, 4544747885001212, -47);
  (33044562019345242731560574611648917198, 4650608662404515, -47);
  (33814268747382698165893089026212692261, 4758935254078704, -47);
  (34601904248294900412474817130714654922, 4869785096216578, -47);
  (35407886136849775482460245257243514061, 4983216962871675, -47);
  (36232641755313309772645880002528429031, 5099290997121178, -47);
  (37076608400031119572304305620491504669, 5218068742954436, -47);
  (37940233553289530732399725820869207382, 5339613177904510, -47);
  (38823975120576392328075598925352096558, 5463988746439664, -47);
  (39728301673368108026807021815329790115, 5591261394132602, -47);
  (40653692697573404757349635474383831024, 5721498602625820, -47);
  (41600638847762091643289750209078192711, 5854769425411123, -47);
  (42569642207317393456378340488299727440, 5991144524442811, -47);
  (43561216554646989607135765254497528076, 6130696207603552, -47);
  (44575887635594575897357572102919220924, 6273498467042901, -47);
  (45614193442198335048942681169137358665, 6419627018409067, -47);
  (46676684497940215123890084214508533478, 6569159340994180, -47);
  (47763924149641887595407752087339758873, 6722174718814995, -47);
  (48876488866158119606097898213192820549, 6878754282650247, -47);
  (50014968544027830432696646312251687050, 7038981053057213, -47);
  (51179966820246136194327846169471740723, 7202939984390464, -47);
  (52372101392319308388323406688868999481, 7370718009845596, -47);
  (53592004345777418450325058074668049812, 7542404087552537, -47);
  (54840322489313841458624665392562747002, 7718089247742239, -47);
  (56117717697731436032881902065128087997, 7897866641012062, -47);
  (57424867262878350970822793897241353989, 8081831587715598, -47);
  (58762464252755819416051963344216346741, 8270081628502600, -47);
  (60131217878993261649611667962744832039, 8462716576036505, -47);
  (61531853872881121958471339894458651543, 8659838567916351, -47);
  (62965114870162572913159237941727042198, 8861552120831395, -47);
  (64431760804790158658761356491595506668, 4533982092988717, -46);
  (65932569311851466409279964864253997803, 4639592102881776, -46);
  (67468336139882609359119669534265995026, 4747662085920042, -46);
  (69039875572784367818712780717760324478, 4858249342239017, -46);
  (70648020861565356653954950161278247833, 4971412506665762, -46);
  (72293624666144495449771056883037090302, 5087211579807982, -46);
  (73977559507440659558596962597221136093, 5205707959867007, -46);
  (75700718229996397212744341231882572174, 5326964475192042, -46);
  (77464014475375407187129894737154245377, 5451045417592553, -46);
  (79268383166586431798350531607866287231, 5578016576426568, -46);
  (81114781003793751779085141606628894806, 5707945273483202, -46);
  (83004186971570064201841887552291154861, 5840900398677405, -46);
  (84937602857969025649254035670310258865, 5976952446576445, -46);
  (86916053785685647881109616719186306000, 6116173553776998, -46);
  (88940588755589089942077407613396644592, 6258637537152868, -46);
  (91012281202918941858115431386977434158, 6404419932993821, -46);
  (93132229566432215506210923194885253906, 6553598037055744, -46);
  (95301557870812459327680699061602354050, 6706250945544043, -46);
  (97521416322641286456018860917538404465, 6862459597051411, -46);
  (99792981920252671557136636693030595779, 7022306815472509, -46);
  (102117459077794762833946151658892631531, 7185877353918412, -46);
  (104496080263823913014675781596451997757, 7353257939653669, -46);
  (106930106654778057873045327141880989075, 7524537320080404, -46);
  (109420828803668300110985001083463430405, 7699806309793303, -46);
  (111969567324345703696053533349186182022, 7879157838730609, -46);
  (114577673591711246103841403964906930923, 8062687001447017, -46);
  (117246530458229557325466885231435298920, 8250491107533846, -46);
  (119977552987138253115517727565020322800, 8442669733214059, -46);
  (122772189202731624391162768006324768066, 8639324774138784, -46);
  (125631920858121944206686748657375574112, 8840560499413713, -46);
  (128558264220886826478817965835332870483, 4523241803442060, -45);
  (131552770877010885897107073105871677399, 4628601639853613, -45);
  (134617028553560714954073773697018623352, 4736415622121402, -45);
  (137752661960517087891275878064334392548, 4846740914645927, -45);
  (140961333652216666223466745577752590179, 4959636013357587, -45);
  (144244744908862799093185458332300186157, 5075160776732084, -45);
  (147604636638564045370003441348671913147, 5193376457528082, -45);
  (151042790300389413005177630111575126648, 5314345735264326, -45);
  (154561028848920358313989709131419658661, 5438132749453111, -45);
  (158161217700803433672263054177165031433, 5564803133607830, -45);
  (161845265723823160897154593840241432190, 5694424050042882, -45);
  (165615126249004703140599303878843784332, 5827064225483869, -45);
  (169472798106298625953058945015072822571, 5962793987507514, -45);
  (173420326684386708393503795377910137177, 6101685301830263, -45);
  (177459805015171724562605959363281726837, 6243811810465377, -45);
  (181593374883534721675459877587854862213, 6389248870769045, -45);
  (185823227962932719492528121918439865112, 6538073595395676, -45);
  (190151606977457817038157372735440731049, 6690364893184219, -45);
  (194580806890957234145389520563185214996, 6846203510996605, -45);
  (199113176123850934118308941833674907684, 7005672076530711, -45);
  (203751117798300526828825240954756736755, 7168855142130846, -45);
  (208497091012371072338282829150557518005, 7335839229618334, -45);
  (213353612143881804286138503812253475189, 7506712876166683, -45);
  (218323256184620589692713110707700252533, 7681566681245083, -45);
  (223408658105637726976056001149117946625, 7860493354655411, -45);
  (228612514254346592679212335497140884399, 8043587765688340, -45);
  (233937583784156515775976004078984260559, 8230946993424074, -45);
  (239386690117418794443437946029007434845, 8422670378205185, -45);
  (244962722442439485348586458712816238403, 8618859574308068, -45);
  (250668637245363612464643665589392185211, 8819618603841325, -45);
  (256507459877747407972492510452866554260, 4512526955949905, -44);
  (262482286160635226224258076399564743042, 4617637211501534, -44);
  (268596284026009243461885489523410797119, 4725195799424356, -44);
  (274852695196466981997218681499361991882, 4835259748705411, -44);
  (281254836904022340604569762945175170898, 4947887416707440, -44);
  (287806103648952955609274795278906822205, 5063138520110855, -44);
  (294509968999601767336571356281638145447, 5181074166576183, -44);
  (301369987434114193547429749742150306702, 5301756887144249, -44);
  (308389796225068494095467031002044677734, 5425250669390944, -44);
  (315573117368001874183391919359564781189, 5551620991354215, -44);
  (322923759554869093335582874715328216553, 5680934856251516, -44);
  (330445620193452214152785018086433410645, 5813260828005640, -44);
  (338142687473826811128674307838082313538, 5948669067598377, -44);
  (346019042482949032546457601711153984070, 6087231370270723, -44);
  (354078861368497769035457167774438858032, 6229021203589594, -44);
  (362326417553132955617911648005247116089, 6374113746401470, -44);
  (370766084000310797819111030548810958862, 6522585928693038, -44);
  (379402335532895278902287827804684638977, 6674516472380637, -44);
  (388239751205763695907080546021461486816, 6829985933049576, -44);
  (397283016733680881316104205325245857239, 6989076742665749, -44);
  (406536926975734274947171797975897789001, 7151873253282279, -44);
  (416006388477620930643752217292785644531, 7318461781763904, -44);
  (425696422073173891931219259276986122131, 7488930655553513, -44);
  (435612165546469668697682209312915802002, 7663370259504436, -44);
  (445758876355945972136396449059247970581, 7841873083803630, -44);
  (456141934421983364700281526893377304077, 8024533773011334, -44);
  (466766844979402151238900842145085334778, 8211449176242725, -44);
  (477639241496418605947837932035326957703, 8402718398518739, -44);
  (488764888661581210271833697333931922913, 8598442853312809, -44);
  (500149685440278346959530608728528022766, 8798726316321517, -44);
  (511799668202461134569603018462657928467, 9003674980488076, -44);
  (523721013923193368100328370928764343262, 4606698756153500, -43);
  (535920043457774227135814726352691650391, 4714002554720336, -43);
  (548403224893138371953682508319616317749, 4823805779838899, -43);
  (561177176977314047690015286207199096680, 4936166650632536, -43);
  (574248672628783538129937369376420974731, 5051144742322249, -43);
  (587624642527558194160519633442163467407, 5168801017814125, -43);
  (601312178789932659128680825233459472656, 5289197860022816, -43);
  (615318538728811518012662418186664581299, 5412399104947722, -43);
  (629651148701625743342447094619274139404, 5538470075519622, -43);
  (644317608047901671852741856127977371216, 5667477616235897, -43);
  (659325693118514436719124205410480499268, 5799490128602218, -43);
  (674683361398826491495128720998764038086, 5934577607400056, -43);
  (690398755727843649765418376773595809937, 6072811677798771, -43);
  (706480208615653509696130640804767608643, 6214265633332202, -43);
  (722936246661445352401642594486474990845, 6359014474759981, -43);
  (739775595074406624007679056376218795776, 6507134949833759, -43);
  (757007182299963915284024551510810852051, 6658705593990052, -43);
  (774640144753753702389076352119445800781, 6813806771990688, -43);
  (792683831665864772730856202542781829834, 6972520720533214, -43);
  (811147810037937574634270276874303817749, 7134931591854003, -43);
  (830041869715700613596709445118904113770, 7301125498346756, -43);
  (849376028579689887010317761451005935669, 7471190558220553, -43);
  (869160537856856421967677306383848190308, 7645216942221247, -43);
  (889405887555890899420774076133966445923, 7823296921441085, -43);
  (910122812029189049098931718617677688599, 8005524916242273, -43);
  (931322295664322723496297840029001235962, 8191997546319685, -43);
  (953015578708124508011678699404001235962, 8382813681930053, -43);
  (975214163226412779295060317963361740112, 8578074496314263, -43);
  (997929819202526232402306050062179565430, 8777883519340632, -43);
  (1021174590777947742026299238204956054688, 8982346692398016, -43);
  (1044960802638239101725048385560512542725, 4595786212283543, -42);
  (1069301066547780692417290993034839630127, 4702835825050253, -42);
  (1094208288036683143218397162854671478271, 4812378943620815, -42);
  (1119695673243457122225663624703884124756, 4924473649206631, -42);
  (1145776735917112546303542330861091613770, 5039179375904386, -42);
  (1172465304582295630098087713122367858887, 5156556942208654, -42)
].
(** src/histogram_bins.rs 25: static ENERGIES: [f64; 1000] *)
Definition ENERGIES : list f64 := map (fun '(_, m, e) => f64_bin m e) energies_raw.
(** src/histogram_bins.rs 1029: static BOUNDARIES: [f64; 1001] *)
Definition BOUNDARIES : list f64 := map (fun '(_, m, e) => f64_bin m e) boundaries_raw.
