(** * Model of the table of src/oscillator/lookup_tables/bl_rect.rs.

    [bl_rect_literals] lists, in order, the 5075 literals of [BANDLIMITED_RECT]
    (src/oscillator/lookup_tables/bl_rect.rs:1-5077). An entry [(d, m, e)] stands for the
    literal d / 10^9, whose nearest f32 is m * 2^e; [literal_ok] below is the check that it is
    the nearest one. The file is generated from the source by a script. *)

From Coq Require Import ZArith List Bool.
From Verif Require Import F32.
Import ListNotations.
Open Scope Z_scope.

(** src/oscillator/lookup_tables/bl_rect.rs:2-204 *)
Definition bl_rect_0 : list (Z * Z * Z) := [
(0, 0, 0); (16665675, 8947316, -29); (33326100, 8945907, -28); (49975347, 13415155, -28); (66608220, 8940004, -27); (83219180, 11169489, -27); (99802820, 13395308, -27);
(116353676, 15616726, -27); (132866280, 8916505, -26); (149335430, 10021731, -26); (165755470, 11123661, -26); (182121320, 12221955, -26); (198427500, 13316244, -26); (214668970, 14406191, -26);
(230840240, 15491426, -26); (246936260, 16571612, -26); (262951760, 8823197, -25); (278881760, 9357719, -25); (294721200, 9889202, -25); (310465160, 10417482, -25); (326108600, 10942389, -25);
(341646430, 11463752, -25); (357074380, 11981428, -25); (372387230, 12495242, -25); (387580100, 13005030, -25); (402649130, 13510663, -25); (417589430, 14011976, -25); (432396200, 14508809, -25);
(447065530, 15001030, -25); (461592470, 15488473, -25); (475973800, 15971031, -25); (490204480, 16448533, -25); (504280570, 8460424, -24); (518198970, 8693936, -24); (531954940, 8924723, -24);
(545544500, 9152718, -24); (558964800, 9377873, -24); (572210800, 9600104, -24); (585281400, 9819392, -24); (598171000, 10035644, -24); (610877600, 10248825, -24); (623397470, 10458874, -24);
(635727760, 10665742, -24); (647865360, 10869377, -24); (659808340, 11069747, -24); (671552300, 11266778, -24); (683095400, 11460439, -24); (694435360, 11650692, -24); (705569300, 11837489, -24);
(716494300, 12020780, -24); (727210600, 12200569, -24); (737715800, 12376817, -24); (748006200, 12549462, -24); (758080100, 12718474, -24); (767935800, 12883825, -24); (777571900, 13045492, -24);
(786989330, 13203490, -24); (796184500, 13357759, -24); (805155200, 13508263, -24); (813902740, 13655022, -24); (822425200, 13798005, -24); (830720960, 13937185, -24); (838790240, 14072565, -24);
(846631170, 14204114, -24); (854246260, 14331874, -24); (861632650, 14455797, -24); (868791160, 14575897, -24); (875719900, 14692142, -24); (882422570, 14804594, -24); (888894200, 14913170, -24);
(895140500, 15017966, -24); (901157500, 15118914, -24); (906948700, 15216074, -24); (912512840, 15309425, -24); (917850100, 15398969, -24); (922964700, 15484778, -24); (927855550, 15566833, -24);
(932522700, 15645135, -24); (936968200, 15719718, -24); (941193700, 15790610, -24); (945201040, 15857842, -24); (948990000, 15921410, -24); (952563900, 15981370, -24); (955923740, 16037739, -24);
(959072300, 16090563, -24); (962009970, 16139849, -24); (964740100, 16185653, -24); (967263760, 16227993, -24); (969583800, 16266917, -24); (971702800, 16302468, -24); (973625400, 16334724, -24);
(975344600, 16363567, -24); (976877200, 16389280, -24); (978216050, 16411742, -24); (979366840, 16431049, -24); (980333600, 16447269, -24); (981113800, 16460358, -24); (981717350, 16470484, -24);
(982145100, 16477660, -24); (982399460, 16481928, -24); (982483600, 16483340, -24); (982400600, 16481947, -24); (982154200, 16477813, -24); (981747150, 16470984, -24); (981185260, 16461557, -24);
(980470840, 16449571, -24); (979606000, 16435061, -24); (978596200, 16418120, -24); (977444800, 16398803, -24); (976155700, 16377175, -24); (974729800, 16353252, -24); (973174700, 16327162, -24);
(971494400, 16298971, -24); (969689200, 16268685, -24); (967766900, 16236434, -24); (965728900, 16202242, -24); (963577600, 16166150, -24); (961321500, 16128298, -24); (958962600, 16088723, -24);
(956504170, 16047477, -24); (953954760, 16004705, -24); (951309200, 15960320, -24); (948579600, 15914525, -24); (945767000, 15867337, -24); (942876940, 15818850, -24); (939911840, 15769104, -24);
(936877850, 15718202, -24); (933774200, 15666131, -24); (930609640, 15613039, -24); (927387540, 15558981, -24); (924112860, 15504041, -24); (920786600, 15448236, -24); (917415000, 15391670, -24);
(914000700, 15334387, -24); (910549300, 15276482, -24); (907063250, 15217996, -24); (903547300, 15159008, -24); (900006500, 15099603, -24); (896439900, 15039766, -24); (892857700, 14979666, -24);
(889260000, 14919307, -24); (885653100, 14858793, -24); (882036860, 14798123, -24); (878415470, 14737366, -24); (874795440, 14676632, -24); (871178100, 14615943, -24); (867568800, 14555389, -24);
(863970000, 14495011, -24); (860385400, 14434872, -24); (856816100, 14374989, -24); (853268600, 14315472, -24); (849742950, 14256321, -24); (846244900, 14197633, -24); (842777850, 14139466, -24);
(839342800, 14081835, -24); (835943200, 14024800, -24); (832582830, 13968422, -24); (829263600, 13912735, -24); (825989700, 13857808, -24); (822759030, 13803606, -24); (819580000, 13750271, -24);
(816453400, 13697815, -24); (813380700, 13646264, -24); (810364600, 13595662, -24); (807408400, 13546065, -24); (804512440, 13497479, -24); (801678540, 13449934, -24); (798911330, 13403508, -24);
(796211060, 13358205, -24); (793579500, 13314055, -24); (791017300, 13271068, -24); (788530470, 13229346, -24); (786116500, 13188846, -24); (783778700, 13149625, -24); (781515840, 13111660, -24);
(779333100, 13075040, -24); (777230860, 13039770, -24); (775207040, 13005816, -24); (773266550, 12973260, -24); (771408300, 12942084, -24); (769632400, 12912289, -24); (767942550, 12883938, -24);
(766338050, 12857019, -24); (764817100, 12831502, -24); (763387100, 12807510, -24); (762042000, 12784943, -24); (760782900, 12763819, -24); (759612700, 12744186, -24); (758529700, 12726017, -24);
(757534300, 12709317, -24); (756627260, 12694099, -24); (755810300, 12680393, -24); (755078260, 12668111, -24); (754435900, 12657334, -24); (753879370, 12647997, -24); (753410700, 12640134, -24);
(753028200, 12633717, -24); (752730900, 12628729, -24); (752520000, 12625191, -24); (752395000, 12623093, -24); (752354000, 12622406, -24); (752395000, 12623093, -24); (752518530, 12625166, -24)].

(** src/oscillator/lookup_tables/bl_rect.rs:205-407 *)
Definition bl_rect_1 : list (Z * Z * Z) := [
(752722700, 12628591, -24); (753009560, 12633404, -24); (753375500, 12639543, -24); (753820600, 12647011, -24); (754340350, 12655731, -24); (754936400, 12665731, -24); (755608100, 12677000, -24);
(756352960, 12689497, -24); (757168400, 12703178, -24); (758055270, 12718057, -24); (759010700, 12734086, -24); (760035400, 12751278, -24); (761121600, 12769501, -24); (762274100, 12788837, -24);
(763485600, 12809163, -24); (764760600, 12830554, -24); (766093000, 12852908, -24); (767484400, 12876252, -24); (768928470, 12900479, -24); (770425700, 12925598, -24); (771973900, 12951573, -24);
(773572300, 12978390, -24); (775216200, 13005970, -24); (776904460, 13034294, -24); (778639140, 13063397, -24); (780411200, 13093127, -24); (782223460, 13123532, -24); (784072000, 13154545, -24);
(785955600, 13186147, -24); (787869000, 13218248, -24); (789814050, 13250881, -24); (791788940, 13284014, -24); (793786470, 13317527, -24); (795812960, 13351526, -24); (797854900, 13385784, -24);
(799918600, 13420407, -24); (801999330, 13455316, -24); (804094430, 13490466, -24); (806202100, 13525827, -24); (808323300, 13561415, -24); (810450400, 13597101, -24); (812582900, 13632879, -24);
(814722100, 13668769, -24); (816859660, 13704631, -24); (818998340, 13740512, -24); (821136000, 13776376, -24); (823267760, 13812141, -24); (825395170, 13847833, -24); (827508700, 13883292, -24);
(829618000, 13918680, -24); (831712200, 13953815, -24); (833794600, 13988752, -24); (835855960, 14023336, -24); (837902200, 14057666, -24); (839926200, 14091623, -24); (841929900, 14125240, -24);
(843910200, 14158464, -24); (845863040, 14191227, -24); (847790960, 14223572, -24); (849688300, 14255404, -24); (851556060, 14286740, -24); (853390200, 14317512, -24); (855191800, 14347738, -24);
(856958030, 14377370, -24); (858685900, 14406359, -24); (860376240, 14434718, -24); (862029140, 14462449, -24); (863638200, 14489445, -24); (865207700, 14515776, -24); (866733850, 14541381, -24);
(868212300, 14566185, -24); (869646600, 14590249, -24); (871036200, 14613562, -24); (872375370, 14636030, -24); (873667800, 14657713, -24); (874907300, 14678509, -24); (876099000, 14698502, -24);
(877238600, 14717621, -24); (878326360, 14735871, -24); (879361150, 14753232, -24); (880342360, 14769694, -24); (881268500, 14785232, -24); (882140340, 14799859, -24); (882959070, 14813595, -24);
(883721600, 14826388, -24); (884427960, 14838239, -24); (885077200, 14849131, -24); (885671000, 14859094, -24); (886207640, 14868097, -24); (886687340, 14876145, -24); (887111400, 14883260, -24);
(887477800, 14889407, -24); (887788830, 14894625, -24); (888040300, 14898844, -24); (888237060, 14902145, -24); (888376950, 14904492, -24); (888462200, 14905922, -24); (888488230, 14906359, -24);
(888461350, 14905908, -24); (888377900, 14904508, -24); (888241000, 14902211, -24); (888048400, 14898980, -24); (887802060, 14894847, -24); (887506070, 14889881, -24); (887154900, 14883989, -24);
(886751950, 14877229, -24); (886298400, 14869620, -24); (885793000, 14861140, -24); (885239660, 14851857, -24); (884637700, 14841758, -24); (883989300, 14830879, -24); (883291900, 14819179, -24);
(882550800, 14806745, -24); (881762440, 14793519, -24); (880932150, 14779589, -24); (880060000, 14764957, -24); (879144970, 14749605, -24); (878191050, 14733601, -24); (877196430, 14716914, -24);
(876165800, 14699623, -24); (875096500, 14681683, -24); (873993160, 14663172, -24); (872855700, 14644089, -24); (871684800, 14624444, -24); (870483800, 14604295, -24); (869250950, 14583611, -24);
(867991570, 14562482, -24); (866703570, 14540873, -24); (865390500, 14518843, -24); (864053130, 14496406, -24); (862692950, 14473586, -24); (861311700, 14450412, -24); (859909600, 14426889, -24);
(858490700, 14403084, -24); (857053700, 14378975, -24); (855600060, 14354587, -24); (854135630, 14330018, -24); (852655600, 14305187, -24); (851166400, 14280203, -24); (849668900, 14255079, -24);
(848162300, 14229802, -24); (846650900, 14204445, -24); (845132700, 14178974, -24); (843613800, 14153491, -24); (842090300, 14127931, -24); (840568100, 14102393, -24); (839049160, 14076909, -24);
(837531500, 14051447, -24); (836017700, 14026050, -24); (834512050, 14000789, -24); (833010730, 13975601, -24); (831518950, 13950573, -24); (830035100, 13925678, -24); (828566100, 13901032, -24);
(827110650, 13876614, -24); (825666400, 13852384, -24); (824238500, 13828427, -24); (822828770, 13804776, -24); (821438100, 13781444, -24); (820063300, 13758379, -24); (818712950, 13735724, -24);
(817380200, 13713364, -24); (816075500, 13691475, -24); (814790700, 13669920, -24); (813534700, 13648847, -24); (812304140, 13628202, -24); (811101100, 13608018, -24); (809926900, 13588319, -24);
(808780130, 13569079, -24); (807667430, 13550411, -24); (806582200, 13532204, -24); (805532600, 13514594, -24); (804515900, 13497537, -24); (803534200, 13481067, -24); (802585000, 13465142, -24);
(801670200, 13449794, -24); (800794400, 13435101, -24); (799956600, 13421045, -24); (799155100, 13407598, -24); (798390500, 13394770, -24); (797666550, 13382624, -24); (796981500, 13371131, -24);
(796335500, 13360293, -24); (795728600, 13350111, -24); (795165540, 13340664, -24); (794640360, 13331853, -24); (794160100, 13323796, -24); (793716800, 13316358, -24); (793317500, 13309659, -24);
(792959870, 13303659, -24); (792644740, 13298372, -24); (792371030, 13293780, -24); (792140200, 13289907, -24); (791951060, 13286734, -24); (791806160, 13284303, -24); (791700070, 13282523, -24);
(791637700, 13281477, -24); (791617700, 13281141, -24); (791636500, 13281457, -24); (791699100, 13282507, -24); (791802760, 13284246, -24); (791945000, 13286632, -24); (792134050, 13289804, -24)].

(** src/oscillator/lookup_tables/bl_rect.rs:408-610 *)
Definition bl_rect_2 : list (Z * Z * Z) := [
(792355700, 13293523, -24); (792621000, 13297974, -24); (792925500, 13303082, -24); (793267700, 13308824, -24); (793648960, 13315220, -24); (794069470, 13322275, -24); (794521900, 13329866, -24);
(795015900, 13338153, -24); (795544740, 13347026, -24); (796107950, 13356475, -24); (796704300, 13366480, -24); (797334800, 13377058, -24); (797997100, 13388170, -24); (798692940, 13399844, -24);
(799421500, 13412067, -24); (800178050, 13424760, -24); (800964100, 13437948, -24); (801782670, 13451681, -24); (802625300, 13465818, -24); (803492840, 13480373, -24); (804389900, 13495423, -24);
(805310600, 13510870, -24); (806255100, 13526716, -24); (807218700, 13542882, -24); (808206800, 13559460, -24); (809215200, 13576378, -24); (810240500, 13593580, -24); (811287940, 13611153, -24);
(812351470, 13628996, -24); (813430100, 13647092, -24); (814524770, 13665458, -24); (815631570, 13684027, -24); (816752300, 13702830, -24); (817883400, 13721806, -24); (819024740, 13740955, -24);
(820176900, 13760285, -24); (821337760, 13779761, -24); (822500500, 13799269, -24); (823672300, 13818928, -24); (824848830, 13838667, -24); (826027400, 13858440, -24); (827208460, 13878255, -24);
(828392740, 13898124, -24); (829573300, 13917930, -24); (830753270, 13937727, -24); (831929860, 13957467, -24); (833101870, 13977130, -24); (834270800, 13996741, -24); (835433800, 14016253, -24);
(836591700, 14035680, -24); (837736850, 14054892, -24); (838876800, 14074017, -24); (840002360, 14092901, -24); (841118340, 14111624, -24); (842222100, 14130142, -24); (843313400, 14148451, -24);
(844385450, 14166437, -24); (845447800, 14184260, -24); (846490500, 14201754, -24); (847516830, 14218973, -24); (848522960, 14235853, -24); (849509950, 14252412, -24); (850478530, 14268662, -24);
(851425700, 14284553, -24); (852348500, 14300035, -24); (853252230, 14315197, -24); (854129430, 14329914, -24); (854983750, 14344247, -24); (855812130, 14358145, -24); (856613930, 14371597, -24);
(857392500, 14384659, -24); (858139400, 14397190, -24); (858862200, 14409317, -24); (859555500, 14420948, -24); (860219300, 14432085, -24); (860854100, 14442735, -24); (861458240, 14452871, -24);
(862032530, 14462506, -24); (862576600, 14471634, -24); (863090040, 14480248, -24); (863569860, 14488298, -24); (864016830, 14495797, -24); (864436450, 14502837, -24); (864817800, 14509235, -24);
(865170800, 14515157, -24); (865488100, 14520481, -24); (865773000, 14525261, -24); (866024900, 14529487, -24); (866241300, 14533117, -24); (866426940, 14536232, -24); (866577800, 14538763, -24);
(866695170, 14540732, -24); (866777000, 14542105, -24); (866828100, 14542962, -24); (866845670, 14543257, -24); (866828200, 14542964, -24); (866777600, 14542115, -24); (866695500, 14540738, -24);
(866580500, 14538808, -24); (866432300, 14536322, -24); (866252100, 14533299, -24); (866039450, 14529731, -24); (865796450, 14525654, -24); (865521550, 14521042, -24); (865214400, 14515889, -24);
(864877500, 14510237, -24); (864511500, 14504096, -24); (864114700, 14497439, -24); (863690560, 14490323, -24); (863236670, 14482708, -24); (862755100, 14474629, -24); (862245600, 14466081, -24);
(861709700, 14457090, -24); (861147760, 14447662, -24); (860561250, 14437822, -24); (859949230, 14427554, -24); (859313200, 14416883, -24); (858653500, 14405815, -24); (857970950, 14394364, -24);
(857268330, 14382576, -24); (856541930, 14370389, -24); (855796500, 14357883, -24); (855032900, 14345072, -24); (854248700, 14331915, -24); (853448600, 14318492, -24); (852630440, 14304765, -24);
(851796400, 14290772, -24); (850945650, 14276499, -24); (850083350, 14262032, -24); (849204400, 14247286, -24); (848316430, 14232388, -24); (847415700, 14217276, -24); (846501600, 14201940, -24);
(845580500, 14186487, -24); (844651000, 14170892, -24); (843713600, 14155165, -24); (842767950, 14139300, -24); (841816500, 14123337, -24); (840861800, 14107320, -24); (839900600, 14091194, -24);
(838939100, 14075062, -24); (837973950, 14058870, -24); (837008060, 14042665, -24); (836043000, 14026474, -24); (835077170, 14010270, -24); (834113000, 13994094, -24); (833151640, 13977965, -24);
(832195760, 13961928, -24); (831242140, 13945929, -24); (830295200, 13930042, -24); (829354700, 13914263, -24); (828419600, 13898575, -24); (827495160, 13883065, -24); (826578860, 13867692, -24);
(825674060, 13852512, -24); (824779100, 13837497, -24); (823893600, 13822641, -24); (823021770, 13808014, -24); (822163400, 13793613, -24); (821321300, 13779485, -24); (820491700, 13765566, -24);
(819676940, 13751897, -24); (818880700, 13738538, -24); (818101760, 13725470, -24); (817338200, 13712660, -24); (816595100, 13700192, -24); (815871360, 13688050, -24); (815165400, 13676206, -24);
(814481900, 13664739, -24); (813817860, 13653598, -24); (813177600, 13642856, -24); (812558050, 13632462, -24); (811961230, 13622449, -24); (811388400, 13612838, -24); (810839600, 13603631, -24);
(810313340, 13594802, -24); (809812200, 13586394, -24); (809335600, 13578398, -24); (808886350, 13570861, -24); (808460350, 13563714, -24); (808062100, 13557032, -24); (807689700, 13550785, -24);
(807346100, 13545020, -24); (807025700, 13539644, -24); (806734200, 13534754, -24); (806469900, 13530320, -24); (806235100, 13526380, -24); (806024500, 13522847, -24); (805843500, 13519810, -24);
(805689630, 13517229, -24); (805564300, 13515126, -24); (805468100, 13513512, -24); (805397300, 13512324, -24); (805355370, 13511621, -24); (805341840, 13511394, -24); (805356000, 13511632, -24);
(805397000, 13512319, -24); (805467550, 13513503, -24); (805563300, 13515109, -24); (805686800, 13517181, -24); (805836560, 13519694, -24); (806014300, 13522676, -24); (806218740, 13526106, -24)].

(** src/oscillator/lookup_tables/bl_rect.rs:611-813 *)
Definition bl_rect_3 : list (Z * Z * Z) := [
(806449060, 13529970, -24); (806704940, 13534263, -24); (806987000, 13538995, -24); (807292900, 13544127, -24); (807624000, 13549682, -24); (807981250, 13555676, -24); (808360000, 13562030, -24);
(808762670, 13568786, -24); (809188800, 13575935, -24); (809637000, 13583455, -24); (810107950, 13591356, -24); (810601950, 13599644, -24); (811114700, 13608247, -24); (811649000, 13617211, -24);
(812201900, 13626487, -24); (812775100, 13636103, -24); (813364800, 13645997, -24); (813975040, 13656235, -24); (814600770, 13666733, -24); (815243840, 13677522, -24); (815902100, 13688566, -24);
(816576060, 13699873, -24); (817265150, 13711434, -24); (817966300, 13723197, -24); (818681540, 13735197, -24); (819408540, 13747394, -24); (820148800, 13759814, -24); (820897000, 13772366, -24);
(821657300, 13785122, -24); (822427100, 13798037, -24); (823204000, 13811071, -24); (823988800, 13824238, -24); (824780600, 13837522, -24); (825577260, 13850888, -24); (826380500, 13864364, -24);
(827188850, 13877926, -24); (827999100, 13891520, -24); (828812360, 13905164, -24); (829627700, 13918843, -24); (830445900, 13932570, -24); (831261340, 13946251, -24); (832077260, 13959940, -24);
(832895000, 13973659, -24); (833707500, 13987291, -24); (834518200, 14000892, -24); (835323000, 14014394, -24); (836127040, 14027884, -24); (836925450, 14041279, -24); (837716000, 14054542, -24);
(838500440, 14067703, -24); (839277800, 14080745, -24); (840046700, 14093645, -24); (840805400, 14106374, -24); (841556800, 14118980, -24); (842297200, 14131402, -24); (843024000, 14143596, -24);
(843741060, 14155626, -24); (844446000, 14167453, -24); (845137060, 14179047, -24); (845815900, 14190436, -24); (846478500, 14201553, -24); (847125900, 14212414, -24); (847757760, 14223015, -24);
(848375700, 14233382, -24); (848977600, 14243481, -24); (849558830, 14253232, -24); (850122870, 14262695, -24); (850668670, 14271852, -24); (851197800, 14280729, -24); (851705970, 14289255, -24);
(852196460, 14297484, -24); (852662860, 14305309, -24); (853111500, 14312836, -24); (853538630, 14320002, -24); (853943940, 14326802, -24); (854327400, 14333235, -24); (854692160, 14339355, -24);
(855033100, 14345075, -24); (855351450, 14350416, -24); (855645360, 14355347, -24); (855919100, 14359940, -24); (856168100, 14364117, -24); (856393300, 14367895, -24); (856595160, 14371282, -24);
(856773000, 14374266, -24); (856929540, 14376892, -24); (857062300, 14379119, -24); (857170200, 14380930, -24); (857254700, 14382347, -24); (857311900, 14383307, -24); (857347800, 14383909, -24);
(857360400, 14384121, -24); (857348560, 14383922, -24); (857312900, 14383324, -24); (857252800, 14382315, -24); (857170400, 14380933, -24); (857064960, 14379164, -24); (856934700, 14376979, -24);
(856783000, 14374433, -24); (856609340, 14371520, -24); (856409250, 14368163, -24); (856190000, 14364485, -24); (855948750, 14360437, -24); (855683860, 14355993, -24); (855400100, 14351232, -24);
(855093240, 14346084, -24); (854768700, 14340639, -24); (854419700, 14334784, -24); (854052900, 14328630, -24); (853667600, 14322166, -24); (853262900, 14315376, -24); (852837000, 14308231, -24);
(852393900, 14300797, -24); (851936700, 14293126, -24); (851458900, 14285110, -24); (850966160, 14276843, -24); (850454450, 14268258, -24); (849930640, 14259470, -24); (849390100, 14250401, -24);
(848838030, 14241139, -24); (848269640, 14231603, -24); (847686800, 14221825, -24); (847090800, 14211825, -24); (846486030, 14201679, -24); (845869360, 14191333, -24); (845240300, 14180779, -24);
(844601500, 14170062, -24); (843955040, 14159216, -24); (843300400, 14148233, -24); (842633100, 14137038, -24); (841961700, 14125773, -24); (841282250, 14114374, -24); (840599660, 14102922, -24);
(839908660, 14091329, -24); (839212900, 14079656, -24); (838514150, 14067933, -24); (837812660, 14056164, -24); (837107400, 14044332, -24); (836402540, 14032506, -24); (835695740, 14020648, -24);
(834987000, 14008757, -24); (834278050, 13996863, -24); (833571700, 13985012, -24); (832866670, 13973184, -24); (832162500, 13961370, -24); (831464900, 13949666, -24); (830767330, 13937963, -24);
(830075600, 13926358, -24); (829389800, 13914852, -24); (828709900, 13903445, -24); (828034300, 13892110, -24); (827366230, 13880902, -24); (826707070, 13869843, -24); (826054700, 13858898, -24);
(825412500, 13848124, -24); (824778200, 13837482, -24); (824156800, 13827057, -24); (823544140, 13816778, -24); (822942140, 13806678, -24); (822352700, 13796789, -24); (821774960, 13787096, -24);
(821212000, 13777651, -24); (820661540, 13768416, -24); (820125340, 13759420, -24); (819602250, 13750644, -24); (819094900, 13742132, -24); (818603700, 13733891, -24); (818128470, 13725918, -24);
(817667000, 13718176, -24); (817224600, 13710754, -24); (816799800, 13703627, -24); (816389500, 13696743, -24); (815999700, 13690203, -24); (815626600, 13683944, -24); (815271440, 13677985, -24);
(814935860, 13672355, -24); (814620600, 13667066, -24); (814322530, 13662065, -24); (814044600, 13657402, -24); (813787000, 13653080, -24); (813548800, 13649084, -24); (813331600, 13645440, -24);
(813135560, 13642151, -24); (812958600, 13639182, -24); (812802700, 13636566, -24); (812665340, 13634262, -24); (812551800, 13632357, -24); (812457200, 13630770, -24); (812384840, 13629556, -24);
(812331300, 13628658, -24); (812300300, 13628138, -24); (812289600, 13627958, -24); (812298800, 13628112, -24); (812332330, 13628675, -24); (812384070, 13629543, -24); (812455830, 13630747, -24);
(812550070, 13632328, -24); (812661470, 13634197, -24); (812795640, 13636448, -24); (812949600, 13639031, -24); (813122000, 13641923, -24); (813314300, 13645150, -24); (813528300, 13648740, -24)].

(** src/oscillator/lookup_tables/bl_rect.rs:814-1016 *)
Definition bl_rect_4 : list (Z * Z * Z) := [
(813758700, 13652605, -24); (814007800, 13656785, -24); (814276900, 13661299, -24); (814562560, 13666092, -24); (814866600, 13671193, -24); (815188100, 13676587, -24); (815527200, 13682276, -24);
(815882800, 13688242, -24); (816257000, 13694520, -24); (816643060, 13700997, -24); (817046100, 13707759, -24); (817466700, 13714815, -24); (817898750, 13722064, -24); (818348100, 13729603, -24);
(818809030, 13737336, -24); (819283840, 13745302, -24); (819772700, 13753504, -24); (820272600, 13761891, -24); (820782900, 13770452, -24); (821306940, 13779244, -24); (821839200, 13788174, -24);
(822380660, 13797258, -24); (822935760, 13806571, -24); (823497600, 13815997, -24); (824067530, 13825559, -24); (824645400, 13835254, -24); (825231250, 13845083, -24); (825822300, 13854999, -24);
(826419650, 13865021, -24); (827023500, 13875152, -24); (827629900, 13885326, -24); (828245760, 13895658, -24); (828858850, 13905944, -24); (829477850, 13916329, -24); (830100300, 13926772, -24);
(830723300, 13937224, -24); (831344500, 13947646, -24); (831972660, 13958185, -24); (832596300, 13968648, -24); (833220060, 13979113, -24); (833841150, 13989533, -24); (834459700, 13999911, -24);
(835079700, 14010313, -24); (835691100, 14020570, -24); (836304700, 14030865, -24); (836912160, 14041056, -24); (837512550, 14051129, -24); (838108200, 14061122, -24); (838698600, 14071028, -24);
(839282330, 14080821, -24); (839858100, 14090481, -24); (840426450, 14100016, -24); (840987900, 14109436, -24); (841540750, 14118711, -24); (842078570, 14127734, -24); (842612100, 14136685, -24);
(843133000, 14145424, -24); (843644560, 14154007, -24); (844142260, 14162357, -24); (844630900, 14170555, -24); (845105600, 14178519, -24); (845566870, 14186258, -24); (846016100, 14193795, -24);
(846452830, 14201122, -24); (846871730, 14208150, -24); (847281600, 14215026, -24); (847673900, 14221608, -24); (848052860, 14227966, -24); (848411860, 14233989, -24); (848760000, 14239830, -24);
(849091300, 14245388, -24); (849403440, 14250625, -24); (849703000, 14255651, -24); (849982300, 14260337, -24); (850246250, 14264765, -24); (850492700, 14268900, -24); (850720350, 14272719, -24);
(850931050, 14276254, -24); (851125700, 14279520, -24); (851301700, 14282473, -24); (851457660, 14285089, -24); (851597200, 14287430, -24); (851716300, 14289428, -24); (851817970, 14291134, -24);
(851904870, 14292592, -24); (851966260, 14293622, -24); (852014400, 14294430, -24); (852040350, 14294865, -24); (852050500, 14295035, -24); (852041660, 14294887, -24); (852013230, 14294410, -24);
(851966700, 14293629, -24); (851904000, 14292577, -24); (851818800, 14291148, -24); (851719700, 14289485, -24); (851599800, 14287474, -24); (851467000, 14285246, -24); (851311400, 14282635, -24);
(851137800, 14279723, -24); (850949500, 14276564, -24); (850742700, 14273094, -24); (850520130, 14269360, -24); (850280940, 14265347, -24); (850028630, 14261114, -24); (849756300, 14256545, -24);
(849467800, 14251705, -24); (849166500, 14246650, -24); (848850500, 14241348, -24); (848520300, 14235808, -24); (848171800, 14229961, -24); (847813370, 14223948, -24); (847437600, 14217644, -24);
(847052100, 14211176, -24); (846651800, 14204460, -24); (846240340, 14197557, -24); (845816700, 14190449, -24); (845382800, 14183170, -24); (844936600, 14175684, -24); (844480930, 14168039, -24);
(844015540, 14160231, -24); (843537030, 14152203, -24); (843053760, 14144095, -24); (842560050, 14135812, -24); (842058800, 14127402, -24); (841549300, 14118854, -24); (841031800, 14110172, -24);
(840510250, 14101422, -24); (839979950, 14092525, -24); (839447500, 14083592, -24); (838908730, 14074553, -24); (838365100, 14065432, -24); (837816400, 14056227, -24); (837266700, 14047004, -24);
(836714100, 14037733, -24); (836158000, 14028403, -24); (835601100, 14019060, -24); (835041940, 14009679, -24); (834483300, 14000307, -24); (833925100, 13990942, -24); (833369700, 13981623, -24);
(832809400, 13972223, -24); (832254400, 13962912, -24); (831701500, 13953636, -24); (831152500, 13944425, -24); (830606500, 13935265, -24); (830060960, 13926112, -24); (829524040, 13917104, -24);
(828989570, 13908137, -24); (828459260, 13899240, -24); (827939400, 13890518, -24); (827423040, 13881855, -24); (826914130, 13873317, -24); (826411370, 13864882, -24); (825917100, 13856590, -24);
(825431800, 13848448, -24); (824956240, 13840469, -24); (824487750, 13832609, -24); (824030500, 13824938, -24); (823581500, 13817405, -24); (823143600, 13810058, -24); (822717100, 13802902, -24);
(822301860, 13795936, -24); (821899700, 13789189, -24); (821510500, 13782659, -24); (821129860, 13776273, -24); (820766400, 13770175, -24); (820414300, 13764268, -24); (820073070, 13758543, -24);
(819749100, 13753108, -24); (819437000, 13747872, -24); (819140300, 13742894, -24); (818857970, 13738157, -24); (818592300, 13733700, -24); (818338800, 13729447, -24); (818100330, 13725446, -24);
(817881900, 13721781, -24); (817675000, 13718310, -24); (817486700, 13715151, -24); (817313730, 13712249, -24); (817154900, 13709584, -24); (817013440, 13707211, -24); (816888600, 13705116, -24);
(816780600, 13703305, -24); (816689550, 13701777, -24); (816615160, 13700529, -24); (816554000, 13699503, -24); (816513960, 13698831, -24); (816488200, 13698399, -24); (816480040, 13698262, -24);
(816487900, 13698394, -24); (816513100, 13698817, -24); (816556450, 13699544, -24); (816613550, 13700502, -24); (816688400, 13701758, -24); (816777700, 13703256, -24); (816885400, 13705063, -24);
(817007600, 13707113, -24); (817147430, 13709459, -24); (817302400, 13712059, -24); (817471270, 13714892, -24); (817656160, 13717994, -24); (817856850, 13721361, -24); (818072440, 13724978, -24)].

(** src/oscillator/lookup_tables/bl_rect.rs:1017-1219 *)
Definition bl_rect_5 : list (Z * Z * Z) := [
(818302150, 13728832, -24); (818548300, 13732962, -24); (818805630, 13737279, -24); (819077100, 13741833, -24); (819364000, 13746647, -24); (819662450, 13751654, -24); (819975900, 13756913, -24);
(820300160, 13762353, -24); (820636500, 13767996, -24); (820987340, 13773882, -24); (821346800, 13779913, -24); (821716100, 13786109, -24); (822100460, 13792557, -24); (822492400, 13799133, -24);
(822896060, 13805905, -24); (823306740, 13812795, -24); (823727670, 13819857, -24); (824157660, 13827071, -24); (824595330, 13834414, -24); (825042670, 13841919, -24); (825495800, 13849521, -24);
(825957600, 13857269, -24); (826422400, 13865067, -24); (826895000, 13872996, -24); (827371240, 13880986, -24); (827855600, 13889112, -24); (828341960, 13897272, -24); (828834240, 13905531, -24);
(829328840, 13913829, -24); (829826830, 13922184, -24); (830326900, 13930574, -24); (830828850, 13938995, -24); (831331970, 13947436, -24); (831838000, 13955926, -24); (832344200, 13964418, -24);
(832848000, 13972871, -24); (833354400, 13981367, -24); (833856900, 13989797, -24); (834359900, 13998236, -24); (834861000, 14006643, -24); (835359000, 14014998, -24); (835854000, 14023303, -24);
(836344300, 14031529, -24); (836833400, 14039735, -24); (837316700, 14047843, -24); (837795400, 14055874, -24); (838269350, 14063826, -24); (838736200, 14071658, -24); (839196740, 14079385, -24);
(839651000, 14087006, -24); (840099160, 14094525, -24); (840538560, 14101897, -24); (840972070, 14109170, -24); (841394960, 14116265, -24); (841809800, 14123225, -24); (842215960, 14130039, -24);
(842612700, 14136695, -24); (842998200, 14143163, -24); (843376000, 14149501, -24); (843740200, 14155612, -24); (844093900, 14161546, -24); (844437960, 14167318, -24); (844768600, 14172865, -24);
(845089300, 14178246, -24); (845396300, 14183396, -24); (845692100, 14188359, -24); (845974000, 14193089, -24); (846243260, 14197606, -24); (846499560, 14201906, -24); (846742450, 14205981, -24);
(846971150, 14209818, -24); (847185500, 14213414, -24); (847388270, 14216816, -24); (847574000, 14219932, -24); (847746000, 14222818, -24); (847903900, 14225467, -24); (848046300, 14227856, -24);
(848174200, 14230002, -24); (848287700, 14231906, -24); (848386100, 14233557, -24); (848469140, 14234950, -24); (848538160, 14236108, -24); (848592160, 14237014, -24); (848628700, 14237627, -24);
(848652900, 14238033, -24); (848660230, 14238156, -24); (848651950, 14238017, -24); (848629950, 14237648, -24); (848591000, 14236995, -24); (848537740, 14236101, -24); (848471600, 14234991, -24);
(848388430, 14233596, -24); (848291750, 14231974, -24); (848179460, 14230090, -24); (848053160, 14227971, -24); (847912970, 14225619, -24); (847758600, 14223029, -24); (847588500, 14220175, -24);
(847408000, 14217147, -24); (847211100, 14213844, -24); (847000840, 14210316, -24); (846779000, 14206594, -24); (846544440, 14202659, -24); (846295360, 14198480, -24); (846035200, 14194115, -24);
(845761400, 14189522, -24); (845478100, 14184769, -24); (845183100, 14179819, -24); (844875700, 14174662, -24); (844557340, 14169321, -24); (844228860, 14163810, -24); (843891600, 14158152, -24);
(843543050, 14152304, -24); (843184530, 14146289, -24); (842818260, 14140144, -24); (842442700, 14133843, -24); (842057940, 14127388, -24); (841667300, 14120834, -24); (841266330, 14114107, -24);
(840859530, 14107282, -24); (840446950, 14100360, -24); (840028050, 14093332, -24); (839601600, 14086177, -24); (839173260, 14078991, -24); (838736200, 14071658, -24); (838295100, 14064258, -24);
(837850870, 14056805, -24); (837402640, 14049285, -24); (836950400, 14041698, -24); (836496530, 14034083, -24); (836040260, 14026428, -24); (835580600, 14018716, -24); (835122760, 14011035, -24);
(834660950, 14003287, -24); (834199400, 13995544, -24); (833737900, 13987801, -24); (833277600, 13980078, -24); (832815950, 13972333, -24); (832356900, 13964632, -24); (831900950, 13956982, -24);
(831445400, 13949339, -24); (830993950, 13941765, -24); (830542900, 13934198, -24); (830099500, 13926759, -24); (829657440, 13919342, -24); (829220300, 13912008, -24); (828786130, 13904724, -24);
(828360260, 13897579, -24); (827938440, 13890502, -24); (827524200, 13883552, -24); (827112700, 13876648, -24); (826711830, 13869923, -24); (826316900, 13863297, -24); (825930400, 13856813, -24);
(825549300, 13850419, -24); (825177670, 13844184, -24); (824814900, 13838098, -24); (824462830, 13832191, -24); (824120000, 13826439, -24); (823784350, 13820808, -24); (823459570, 13815359, -24);
(823144850, 13810079, -24); (822841900, 13804996, -24); (822549160, 13800085, -24); (822267400, 13795358, -24); (821997760, 13790834, -24); (821740270, 13786514, -24); (821494000, 13782382, -24);
(821258250, 13778427, -24); (821036300, 13774703, -24); (820827960, 13771208, -24); (820630800, 13767900, -24); (820446130, 13764802, -24); (820275800, 13761944, -24); (820117800, 13759293, -24);
(819973950, 13756880, -24); (819842040, 13754667, -24); (819724600, 13752697, -24); (819619950, 13750941, -24); (819530900, 13749447, -24); (819454250, 13748161, -24); (819391400, 13747107, -24);
(819342430, 13746285, -24); (819308200, 13745711, -24); (819288300, 13745377, -24); (819279900, 13745236, -24); (819286400, 13745345, -24); (819309200, 13745727, -24); (819344000, 13746311, -24);
(819392100, 13747118, -24); (819452700, 13748135, -24); (819528900, 13749413, -24); (819618400, 13750915, -24); (819719600, 13752613, -24); (819836800, 13754579, -24); (819965200, 13756733, -24);
(820107400, 13759119, -24); (820262500, 13761721, -24); (820430700, 13764543, -24); (820608900, 13767533, -24); (820802400, 13770779, -24); (821006800, 13774208, -24); (821220900, 13777800, -24)].

(** src/oscillator/lookup_tables/bl_rect.rs:1220-1422 *)
Definition bl_rect_6 : list (Z * Z * Z) := [
(821447850, 13781608, -24); (821689400, 13785661, -24); (821938300, 13789836, -24); (822199100, 13794212, -24); (822470700, 13798769, -24); (822753370, 13803511, -24); (823044800, 13808400, -24);
(823346850, 13813468, -24); (823657800, 13818685, -24); (823977500, 13824048, -24); (824306250, 13829564, -24); (824644500, 13835239, -24); (824989100, 13841020, -24); (825342060, 13846942, -24);
(825702200, 13852984, -24); (826067200, 13859108, -24); (826441600, 13865389, -24); (826821900, 13871770, -24); (827207860, 13878245, -24); (827597000, 13884774, -24); (827993750, 13891430, -24);
(828393900, 13898143, -24); (828798830, 13904937, -24); (829207700, 13911797, -24); (829618700, 13918692, -24); (830035700, 13925688, -24); (830454300, 13932711, -24); (830872830, 13939733, -24);
(831295500, 13946824, -24); (831717850, 13953910, -24); (832140500, 13961001, -24); (832565500, 13968131, -24); (832989630, 13975247, -24); (833414260, 13982371, -24); (833838000, 13989480, -24);
(834260170, 13996563, -24); (834680400, 14003613, -24); (835098600, 14010630, -24); (835516200, 14017636, -24); (835929200, 14024565, -24); (836340800, 14031470, -24); (836746700, 14038280, -24);
(837149140, 14045032, -24); (837548000, 14051724, -24); (837941170, 14058320, -24); (838329300, 14064832, -24); (838711740, 14071248, -24); (839088700, 14077572, -24); (839458900, 14083783, -24);
(839823960, 14089908, -24); (840178900, 14095863, -24); (840529560, 14101746, -24); (840871400, 14107481, -24); (841205060, 14113079, -24); (841531000, 14118547, -24); (841846900, 14123847, -24);
(842155500, 14129025, -24); (842454400, 14134039, -24); (842743460, 14138889, -24); (843023600, 14143589, -24); (843293370, 14148115, -24); (843552700, 14152466, -24); (843800960, 14156631, -24);
(844038800, 14160621, -24); (844267700, 14164462, -24); (844483700, 14168085, -24); (844687700, 14171508, -24); (844881240, 14174755, -24); (845062550, 14177797, -24); (845231700, 14180635, -24);
(845388100, 14183259, -24); (845536770, 14185753, -24); (845668900, 14187970, -24); (845789100, 14189986, -24); (845898150, 14191816, -24); (845994350, 14193430, -24); (846076550, 14194809, -24);
(846146350, 14195980, -24); (846206370, 14196987, -24); (846249800, 14197716, -24); (846282400, 14198263, -24); (846302700, 14198603, -24); (846308350, 14198698, -24); (846301440, 14198582, -24);
(846282900, 14198271, -24); (846251250, 14197740, -24); (846205830, 14196978, -24); (846148430, 14196015, -24); (846078400, 14194840, -24); (845996900, 14193473, -24); (845902100, 14191882, -24);
(845794740, 14190081, -24); (845676060, 14188090, -24); (845544160, 14185877, -24); (845400870, 14183473, -24); (845247030, 14180892, -24); (845080300, 14178095, -24); (844903770, 14175133, -24);
(844714400, 14171956, -24); (844514130, 14168596, -24); (844303670, 14165065, -24); (844083250, 14161367, -24); (843850430, 14157461, -24); (843610300, 14153432, -24); (843358500, 14149208, -24);
(843100250, 14144875, -24); (842828100, 14140309, -24); (842551300, 14135665, -24); (842263400, 14130835, -24); (841966750, 14125858, -24); (841664550, 14120788, -24); (841352200, 14115548, -24);
(841031600, 14110169, -24); (840708500, 14104748, -24); (840374500, 14099145, -24); (840033350, 14093421, -24); (839687800, 14087624, -24); (839336200, 14081725, -24); (838980560, 14075758, -24);
(838618640, 14069686, -24); (838253140, 14063554, -24); (837881000, 14057311, -24); (837506950, 14051035, -24); (837128600, 14044687, -24); (836746160, 14038271, -24); (836363550, 14031852, -24);
(835976360, 14025356, -24); (835587740, 14018836, -24); (835197700, 14012292, -24); (834805100, 14005705, -24); (834413470, 13999135, -24); (834021870, 13992565, -24); (833627340, 13985946, -24);
(833233950, 13979346, -24); (832842950, 13972786, -24); (832451460, 13966218, -24); (832060500, 13959659, -24); (831672970, 13953157, -24); (831289470, 13946723, -24); (830905850, 13940287, -24);
(830525930, 13933913, -24); (830149300, 13927594, -24); (829775450, 13921322, -24); (829406700, 13915135, -24); (829041700, 13909012, -24); (828683560, 13903003, -24); (828326170, 13897007, -24);
(827979270, 13891187, -24); (827636600, 13885438, -24); (827299200, 13879777, -24); (826967240, 13874208, -24); (826643300, 13868773, -24); (826326500, 13863458, -24); (826016700, 13858261, -24);
(825715600, 13853209, -24); (825422200, 13848287, -24); (825135900, 13843483, -24); (824857060, 13838805, -24); (824589800, 13834321, -24); (824330800, 13829976, -24); (824080200, 13825772, -24);
(823841630, 13821769, -24); (823609100, 13817868, -24); (823385830, 13814122, -24); (823178770, 13810648, -24); (822977400, 13807270, -24); (822786000, 13804058, -24); (822607800, 13801069, -24);
(822438660, 13798231, -24); (822283150, 13795622, -24); (822135270, 13793141, -24); (822001640, 13790899, -24); (821876600, 13788801, -24); (821763600, 13786905, -24); (821663100, 13785219, -24);
(821574400, 13783731, -24); (821499300, 13782471, -24); (821432650, 13781353, -24); (821379660, 13780464, -24); (821337800, 13779762, -24); (821307960, 13779261, -24); (821289800, 13778956, -24);
(821282800, 13778839, -24); (821288000, 13778926, -24); (821305500, 13779220, -24); (821336900, 13779747, -24); (821378650, 13780447, -24); (821431160, 13781328, -24); (821497860, 13782447, -24);
(821571230, 13783678, -24); (821660940, 13785183, -24); (821760900, 13786860, -24); (821871900, 13788722, -24); (821993050, 13790755, -24); (822126200, 13792989, -24); (822269700, 13795396, -24);
(822423700, 13797980, -24); (822589200, 13800757, -24); (822765400, 13803713, -24); (822949650, 13806804, -24); (823145500, 13810090, -24); (823352750, 13813567, -24); (823565800, 13817141, -24)].

(** src/oscillator/lookup_tables/bl_rect.rs:1423-1625 *)
Definition bl_rect_7 : list (Z * Z * Z) := [
(823790400, 13820909, -24); (824024560, 13824838, -24); (824265660, 13828883, -24); (824515460, 13833074, -24); (824774560, 13837421, -24); (825041500, 13841899, -24); (825317800, 13846535, -24);
(825600600, 13851280, -24); (825891500, 13856160, -24); (826187700, 13861129, -24); (826491700, 13866230, -24); (826800100, 13871404, -24); (827115700, 13876699, -24); (827437340, 13882095, -24);
(827765200, 13887596, -24); (828095850, 13893143, -24); (828433750, 13898812, -24); (828774030, 13904521, -24); (829118800, 13910305, -24); (829467950, 13916163, -24); (829818840, 13922050, -24);
(830172660, 13927986, -24); (830531060, 13933999, -24); (830890300, 13940026, -24); (831253800, 13946125, -24); (831616940, 13952217, -24); (831982430, 13958349, -24); (832347150, 13964468, -24);
(832712800, 13970603, -24); (833078560, 13976739, -24); (833443600, 13982863, -24); (833809600, 13989004, -24); (834172600, 13995094, -24); (834535840, 14001188, -24); (834896600, 14007241, -24);
(835256340, 14013276, -24); (835613300, 14019265, -24); (835965800, 14025179, -24); (836316700, 14031066, -24); (836665100, 14036911, -24); (837008540, 14042673, -24); (837347150, 14048354, -24);
(837683400, 14053995, -24); (838012900, 14059523, -24); (838338700, 14064989, -24); (838661000, 14070397, -24); (838974060, 14075649, -24); (839280600, 14080792, -24); (839583340, 14085871, -24);
(839878000, 14090815, -24); (840167460, 14095671, -24); (840448200, 14100381, -24); (840722440, 14104982, -24); (840988000, 14109437, -24); (841248150, 14113802, -24); (841498400, 14118000, -24);
(841738200, 14122024, -24); (841973800, 14125976, -24); (842197900, 14129736, -24); (842410560, 14133304, -24); (842617700, 14136779, -24); (842815200, 14140093, -24); (843000700, 14143205, -24);
(843176960, 14146162, -24); (843346700, 14149010, -24); (843503300, 14151637, -24); (843651500, 14154123, -24); (843786000, 14156380, -24); (843911500, 14158486, -24); (844027100, 14160425, -24);
(844132500, 14162193, -24); (844226240, 14163766, -24); (844309450, 14165162, -24); (844381900, 14166378, -24); (844442100, 14167388, -24); (844493300, 14168247, -24); (844531360, 14168885, -24);
(844557600, 14169325, -24); (844575760, 14169630, -24); (844581840, 14169732, -24); (844577200, 14169654, -24); (844558060, 14169333, -24); (844530200, 14168866, -24); (844492730, 14168237, -24);
(844443200, 14167406, -24); (844382640, 14166390, -24); (844311800, 14165201, -24); (844228860, 14163810, -24); (844134900, 14162234, -24); (844033100, 14160526, -24); (843919630, 14158622, -24);
(843795700, 14156543, -24); (843661100, 14154285, -24); (843516300, 14151855, -24); (843361500, 14149258, -24); (843197460, 14146506, -24); (843026400, 14143636, -24); (842842940, 14140558, -24);
(842650530, 14137330, -24); (842450860, 14133980, -24); (842241100, 14130461, -24); (842022200, 14126788, -24); (841797100, 14123012, -24); (841561850, 14119065, -24); (841318400, 14114981, -24);
(841071600, 14110840, -24); (840811900, 14106483, -24); (840547800, 14102052, -24); (840278200, 14097529, -24); (840000900, 14092877, -24); (839717750, 14088126, -24); (839427900, 14083263, -24);
(839130160, 14078268, -24); (838831250, 14073253, -24); (838526700, 14068144, -24); (838217100, 14062949, -24); (837901900, 14057661, -24); (837583540, 14052320, -24); (837260000, 14046892, -24);
(836935700, 14041451, -24); (836606000, 14035920, -24); (836273900, 14030348, -24); (835939400, 14024736, -24); (835601300, 14019063, -24); (835264700, 14013416, -24); (834924040, 14007701, -24);
(834584360, 14002002, -24); (834240200, 13996228, -24); (833898540, 13990496, -24); (833556600, 13984759, -24); (833214700, 13979023, -24); (832870700, 13973252, -24); (832531700, 13967564, -24);
(832193500, 13961890, -24); (831856100, 13956229, -24); (831519000, 13950574, -24); (831185800, 13944984, -24); (830856140, 13939453, -24); (830525600, 13933907, -24); (830202340, 13928484, -24);
(829878870, 13923057, -24); (829563300, 13917763, -24); (829246940, 13912455, -24); (828938900, 13907287, -24); (828633070, 13902156, -24); (828333500, 13897130, -24); (828039800, 13892203, -24);
(827751930, 13887373, -24); (827468000, 13882609, -24); (827192540, 13877988, -24); (826921100, 13873434, -24); (826658300, 13869025, -24); (826402000, 13864725, -24); (826150900, 13860512, -24);
(825909730, 13856466, -24); (825677600, 13852571, -24); (825451000, 13848770, -24); (825231800, 13845092, -24); (825022400, 13841579, -24); (824819560, 13838176, -24); (824627400, 13834952, -24);
(824444350, 13831881, -24); (824266730, 13828901, -24); (824101200, 13826124, -24); (823945460, 13823511, -24); (823797640, 13821031, -24); (823660800, 13818735, -24); (823531270, 13816562, -24);
(823413700, 13814590, -24); (823305400, 13812773, -24); (823208500, 13811147, -24); (823119940, 13809661, -24); (823042330, 13808359, -24); (822975400, 13807236, -24); (822918500, 13806281, -24);
(822870550, 13805477, -24); (822834000, 13804864, -24); (822809300, 13804449, -24); (822792300, 13804164, -24); (822787300, 13804080, -24); (822791640, 13804153, -24); (822809340, 13804450, -24);
(822833800, 13804860, -24); (822870300, 13805473, -24); (822917760, 13806269, -24); (822973300, 13807201, -24); (823041200, 13808340, -24); (823117430, 13809619, -24); (823205600, 13811098, -24);
(823302300, 13812721, -24); (823407500, 13814485, -24); (823524950, 13816456, -24); (823652300, 13818593, -24); (823785300, 13820824, -24); (823930260, 13823256, -24); (824084900, 13825850, -24);
(824247000, 13828570, -24); (824418070, 13831440, -24); (824598550, 13834468, -24); (824786500, 13837621, -24); (824984250, 13840939, -24); (825190070, 13844392, -24); (825399800, 13847911, -24)].

(** src/oscillator/lookup_tables/bl_rect.rs:1626-1828 *)
Definition bl_rect_8 : list (Z * Z * Z) := [
(825618740, 13851584, -24); (825847300, 13855419, -24); (826082400, 13859363, -24); (826323500, 13863408, -24); (826571050, 13867561, -24); (826824300, 13871810, -24); (827085400, 13876190, -24);
(827352050, 13880664, -24); (827624000, 13885227, -24); (827900470, 13889865, -24); (828181300, 13894577, -24); (828470770, 13899433, -24); (828759600, 13904279, -24); (829055850, 13909249, -24);
(829355540, 13914277, -24); (829658300, 13919357, -24); (829963400, 13924475, -24); (830273100, 13929671, -24); (830584200, 13934891, -24); (830898760, 13940168, -24); (831216400, 13945497, -24);
(831532600, 13950802, -24); (831851800, 13956157, -24); (832171100, 13961514, -24); (832491460, 13966889, -24); (832815700, 13972329, -24); (833137630, 13977730, -24); (833457900, 13983103, -24);
(833779300, 13988495, -24); (834099350, 13993865, -24); (834418500, 13999219, -24); (834734300, 14004518, -24); (835048200, 14009784, -24); (835363860, 14015080, -24); (835675240, 14020304, -24);
(835985900, 14025516, -24); (836288000, 14030584, -24); (836592400, 14035691, -24); (836887660, 14040645, -24); (837185000, 14045634, -24); (837477200, 14050536, -24); (837761040, 14055298, -24);
(838046250, 14060083, -24); (838321000, 14064692, -24); (838589850, 14069203, -24); (838858100, 14073704, -24); (839118200, 14078067, -24); (839369300, 14082280, -24); (839618270, 14086457, -24);
(839860560, 14090522, -24); (840095200, 14094459, -24); (840321000, 14098247, -24); (840543030, 14101972, -24); (840754700, 14105523, -24); (840960000, 14108968, -24); (841156540, 14112265, -24);
(841347700, 14115472, -24); (841530100, 14118532, -24); (841702800, 14121430, -24); (841868900, 14124216, -24); (842024800, 14126832, -24); (842171970, 14129301, -24); (842308000, 14131583, -24);
(842437600, 14133758, -24); (842560200, 14135814, -24); (842670560, 14137666, -24); (842773140, 14139387, -24); (842862700, 14140890, -24); (842946600, 14142297, -24); (843018800, 14143508, -24);
(843082800, 14144582, -24); (843136670, 14145486, -24); (843180900, 14146228, -24); (843216100, 14146819, -24); (843241900, 14147251, -24); (843254300, 14147460, -24); (843258900, 14147537, -24);
(843255000, 14147471, -24); (843241300, 14147241, -24); (843216900, 14146832, -24); (843180240, 14146217, -24); (843138700, 14145520, -24); (843085470, 14144627, -24); (843021330, 14143551, -24);
(842949300, 14142342, -24); (842865700, 14140940, -24); (842776360, 14139441, -24); (842674550, 14137733, -24); (842565830, 14135909, -24); (842447100, 14133917, -24); (842319130, 14131770, -24);
(842183200, 14129489, -24); (842039760, 14127083, -24); (841886340, 14124509, -24); (841723200, 14121772, -24); (841555800, 14118963, -24); (841376900, 14115962, -24); (841192200, 14112863, -24);
(841000440, 14109646, -24); (840797600, 14106243, -24); (840593160, 14102813, -24); (840378200, 14099207, -24); (840157030, 14095496, -24); (839929760, 14091683, -24); (839696300, 14087766, -24);
(839458300, 14083773, -24); (839210300, 14079612, -24); (838961200, 14075433, -24); (838707030, 14071169, -24); (838443340, 14066745, -24); (838179770, 14062323, -24); (837907900, 14057762, -24);
(837632500, 14053141, -24); (837354800, 14048482, -24); (837073500, 14043763, -24); (836786570, 14038949, -24); (836498140, 14034110, -24); (836208200, 14029246, -24); (835913060, 14024294, -24);
(835620000, 14019377, -24); (835317970, 14014310, -24); (835020540, 14009320, -24); (834718350, 14004250, -24); (834415560, 13999170, -24); (834116000, 13994144, -24); (833810200, 13989014, -24);
(833507900, 13983942, -24); (833204700, 13978855, -24); (832903150, 13973796, -24); (832600700, 13968722, -24); (832299350, 13963666, -24); (832000800, 13958657, -24); (831703900, 13953676, -24);
(831408500, 13948720, -24); (831114530, 13943788, -24); (830821750, 13938876, -24); (830534600, 13934058, -24); (830249400, 13929274, -24); (829968040, 13924553, -24); (829691800, 13919919, -24);
(829416040, 13915292, -24); (829146700, 13910773, -24); (828881100, 13906317, -24); (828620800, 13901950, -24); (828364100, 13897643, -24); (828113000, 13893431, -24); (827868200, 13889324, -24);
(827629900, 13885326, -24); (827393530, 13881360, -24); (827167500, 13877568, -24); (826945700, 13873847, -24); (826730300, 13870233, -24); (826522650, 13866749, -24); (826322200, 13863386, -24);
(826127300, 13860116, -24); (825941500, 13856999, -24); (825760960, 13853970, -24); (825591600, 13851129, -24); (825426300, 13848355, -24); (825273900, 13845798, -24); (825125500, 13843309, -24);
(824986900, 13840983, -24); (824854140, 13838756, -24); (824732240, 13836711, -24); (824619230, 13834815, -24); (824515000, 13833066, -24); (824420450, 13831480, -24); (824334200, 13830033, -24);
(824252960, 13828670, -24); (824184300, 13827518, -24); (824122250, 13826477, -24); (824074750, 13825680, -24); (824032070, 13824964, -24); (823999500, 13824418, -24); (823975740, 13824019, -24);
(823960840, 13823769, -24); (823957440, 13823712, -24); (823960800, 13823768, -24); (823976000, 13824023, -24); (823998700, 13824404, -24); (824031830, 13824960, -24); (824071700, 13825629, -24);
(824124040, 13826507, -24); (824184600, 13827523, -24); (824251600, 13828647, -24); (824328060, 13829930, -24); (824416640, 13831416, -24); (824509500, 13832974, -24); (824612900, 13834709, -24);
(824724560, 13836582, -24); (824846100, 13838621, -24); (824974360, 13840773, -24); (825110000, 13843049, -24); (825256000, 13845498, -24); (825407400, 13848038, -24); (825570170, 13850769, -24);
(825736050, 13853552, -24); (825911640, 13856498, -24); (826094150, 13859560, -24); (826278900, 13862660, -24); (826478960, 13866016, -24); (826680300, 13869394, -24); (826887600, 13872872, -24)].

(** src/oscillator/lookup_tables/bl_rect.rs:1829-2031 *)
Definition bl_rect_9 : list (Z * Z * Z) := [
(827103260, 13876490, -24); (827324870, 13880208, -24); (827552500, 13884027, -24); (827782700, 13887889, -24); (828020000, 13891870, -24); (828261800, 13895927, -24); (828510050, 13900092, -24);
(828759800, 13904282, -24); (829015500, 13908572, -24); (829276400, 13912949, -24); (829537450, 13917329, -24); (829807040, 13921852, -24); (830075200, 13926351, -24); (830349400, 13930951, -24);
(830623000, 13935541, -24); (830901200, 13940209, -24); (831180450, 13944894, -24); (831463930, 13949650, -24); (831746040, 13954383, -24); (832031000, 13959164, -24); (832316800, 13963959, -24);
(832603500, 13968769, -24); (832890800, 13973589, -24); (833175500, 13978365, -24); (833463970, 13983205, -24); (833747270, 13987958, -24); (834033850, 13992766, -24); (834318900, 13997548, -24);
(834601640, 14002292, -24); (834884200, 14007033, -24); (835165300, 14011749, -24); (835441470, 14016382, -24); (835715350, 14020977, -24); (835989100, 14025570, -24); (836260740, 14030127, -24);
(836525900, 14034576, -24); (836789500, 14038998, -24); (837051150, 14043388, -24); (837305700, 14047659, -24); (837556900, 14051873, -24); (837803000, 14056002, -24); (838044050, 14060046, -24);
(838281800, 14064035, -24); (838515300, 14067952, -24); (838740900, 14071737, -24); (838961800, 14075443, -24); (839178100, 14079072, -24); (839387100, 14082579, -24); (839589400, 14085973, -24);
(839785300, 14089259, -24); (839979050, 14092510, -24); (840159700, 14095541, -24); (840336600, 14098509, -24); (840506300, 14101356, -24); (840669900, 14104100, -24); (840823300, 14106674, -24);
(840973600, 14109196, -24); (841110900, 14111499, -24); (841243270, 14113720, -24); (841366600, 14115789, -24); (841484370, 14117765, -24); (841588560, 14119513, -24); (841688630, 14121192, -24);
(841779950, 14122724, -24); (841862500, 14124109, -24); (841936230, 14125346, -24); (842001100, 14126434, -24); (842058540, 14127398, -24); (842104300, 14128166, -24); (842146000, 14128865, -24);
(842179500, 14129427, -24); (842198900, 14129753, -24); (842210600, 14129949, -24); (842217200, 14130060, -24); (842211200, 14129959, -24); (842197500, 14129729, -24); (842176800, 14129382, -24);
(842145560, 14128858, -24); (842108550, 14128237, -24); (842057600, 14127382, -24); (842002700, 14126461, -24); (841938730, 14125388, -24); (841863800, 14124131, -24); (841783400, 14122782, -24);
(841692500, 14121257, -24); (841593200, 14119591, -24); (841488100, 14117828, -24); (841374300, 14115918, -24); (841251200, 14113853, -24); (841122100, 14111687, -24); (840985300, 14109392, -24);
(840841650, 14106982, -24); (840689060, 14104422, -24); (840530200, 14101757, -24); (840364600, 14098978, -24); (840193400, 14096106, -24); (840013300, 14093085, -24); (839827100, 14089961, -24);
(839637340, 14086777, -24); (839437540, 14083425, -24); (839233700, 14080005, -24); (839025600, 14076514, -24); (838811460, 14072921, -24); (838591000, 14069222, -24); (838367400, 14065471, -24);
(838134100, 14061557, -24); (837901100, 14057648, -24); (837662040, 14053637, -24); (837420340, 14049582, -24); (837175970, 14045482, -24); (836925000, 14041272, -24); (836673700, 14037055, -24);
(836417730, 14032761, -24); (836158340, 14028409, -24); (835896000, 14024008, -24); (835633500, 14019604, -24); (835368000, 14015149, -24); (835099700, 14010648, -24); (834829600, 14006117, -24);
(834561200, 14001614, -24); (834291160, 13997083, -24); (834018400, 13992507, -24); (833747740, 13987966, -24); (833473600, 13983367, -24); (833201770, 13978806, -24); (832931400, 13974270, -24);
(832659400, 13969707, -24); (832390550, 13965196, -24); (832123000, 13960707, -24); (831852700, 13956172, -24); (831589500, 13951757, -24); (831324200, 13947306, -24); (831064460, 13942948, -24);
(830804200, 13938582, -24); (830550300, 13934322, -24); (830296640, 13930066, -24); (830046400, 13925868, -24); (829800670, 13921745, -24); (829558000, 13917674, -24); (829320430, 13913688, -24);
(829083600, 13909715, -24); (828854600, 13905873, -24); (828628800, 13902084, -24); (828407800, 13898377, -24); (828195600, 13894816, -24); (827985050, 13891284, -24); (827778640, 13887821, -24);
(827581050, 13884506, -24); (827386300, 13881239, -24); (827201250, 13878134, -24); (827021200, 13875113, -24); (826846000, 13872174, -24); (826679200, 13869376, -24); (826516700, 13866649, -24);
(826362970, 13864070, -24); (826216900, 13861619, -24); (826076100, 13859257, -24); (825943700, 13857036, -24); (825819130, 13854946, -24); (825700940, 13852963, -24); (825591400, 13851125, -24);
(825489460, 13849415, -24); (825395700, 13847842, -24); (825309500, 13846396, -24); (825229350, 13845051, -24); (825159000, 13843871, -24); (825097100, 13842832, -24); (825042700, 13841920, -24);
(824998260, 13841174, -24); (824961700, 13840561, -24); (824932100, 13840064, -24); (824912000, 13839727, -24); (824897700, 13839487, -24); (824894850, 13839439, -24); (824897500, 13839484, -24);
(824911360, 13839716, -24); (824931500, 13840054, -24); (824961200, 13840552, -24); (824997900, 13841168, -24); (825043300, 13841930, -24); (825097600, 13842841, -24); (825157760, 13843850, -24);
(825228330, 13845034, -24); (825305800, 13846334, -24); (825391050, 13847764, -24); (825485050, 13849341, -24); (825585070, 13851019, -24); (825694260, 13852851, -24); (825809100, 13854778, -24);
(825932560, 13856849, -24); (826063900, 13859052, -24); (826201700, 13861364, -24); (826344500, 13863760, -24); (826497300, 13866324, -24); (826653360, 13868942, -24); (826816300, 13871676, -24);
(826989500, 13874581, -24); (827166560, 13877552, -24); (827346500, 13880571, -24); (827534300, 13883722, -24); (827728300, 13886976, -24); (827928540, 13890336, -24); (828131300, 13893738, -24)].

(** src/oscillator/lookup_tables/bl_rect.rs:2032-2234 *)
Definition bl_rect_10 : list (Z * Z * Z) := [
(828340100, 13897241, -24); (828555100, 13900848, -24); (828772900, 13904502, -24); (828994150, 13908214, -24); (829222900, 13912052, -24); (829452000, 13915895, -24); (829686340, 13919827, -24);
(829924170, 13923817, -24); (830163840, 13927838, -24); (830407500, 13931926, -24); (830653700, 13936057, -24); (830903770, 13940252, -24); (831153400, 13944440, -24); (831406240, 13948682, -24);
(831660030, 13952940, -24); (831915260, 13957222, -24); (832172200, 13961533, -24); (832430060, 13965859, -24); (832687700, 13970181, -24); (832949100, 13974567, -24); (833206300, 13978882, -24);
(833464800, 13983219, -24); (833723300, 13987556, -24); (833980200, 13991866, -24); (834235370, 13996147, -24); (834492560, 14000462, -24); (834746700, 14004726, -24); (834999800, 14008972, -24);
(835250400, 14013176, -24); (835499800, 14017361, -24); (835745400, 14021481, -24); (835988640, 14025562, -24); (836228800, 14029591, -24); (836465660, 14033565, -24); (836701100, 14037515, -24);
(836931650, 14041383, -24); (837158140, 14045183, -24); (837381960, 14048938, -24); (837600050, 14052597, -24); (837815100, 14056205, -24); (838024300, 14059715, -24); (838230300, 14063171, -24);
(838428700, 14066499, -24); (838623940, 14069775, -24); (838814440, 14072971, -24); (838997240, 14076038, -24); (839174600, 14079014, -24); (839346650, 14081900, -24); (839514100, 14084709, -24);
(839672000, 14087359, -24); (839826000, 14089942, -24); (839972400, 14092398, -24); (840112900, 14094756, -24); (840245250, 14096976, -24); (840370900, 14099084, -24); (840490500, 14101091, -24);
(840602000, 14102961, -24); (840707360, 14104729, -24); (840804000, 14106350, -24); (840895100, 14107879, -24); (840977250, 14109257, -24); (841051800, 14110508, -24); (841118100, 14111620, -24);
(841176750, 14112604, -24); (841228900, 14113479, -24); (841271640, 14114196, -24); (841306570, 14114782, -24); (841335700, 14115271, -24); (841356200, 14115615, -24); (841366770, 14115792, -24);
(841371400, 14115870, -24); (841368100, 14115814, -24); (841355500, 14115603, -24); (841335360, 14115265, -24); (841307900, 14114804, -24); (841272950, 14114218, -24); (841230700, 14113509, -24);
(841178600, 14112635, -24); (841118000, 14111618, -24); (841052600, 14110521, -24); (840978400, 14109276, -24); (840897260, 14107915, -24); (840807400, 14106407, -24); (840712300, 14104812, -24);
(840607700, 14103057, -24); (840497800, 14101213, -24); (840380970, 14099253, -24); (840257800, 14097187, -24); (840126700, 14094987, -24); (839989540, 14092686, -24); (839846000, 14090278, -24);
(839694260, 14087732, -24); (839539230, 14085131, -24); (839376700, 14082404, -24); (839208250, 14079578, -24); (839033540, 14076647, -24); (838854430, 14073642, -24); (838670730, 14070560, -24);
(838481070, 14067378, -24); (838286340, 14064111, -24); (838085830, 14060747, -24); (837884070, 14057362, -24); (837674860, 14053852, -24); (837462700, 14050293, -24); (837247000, 14046674, -24);
(837026950, 14042982, -24); (836803730, 14039237, -24); (836578000, 14035450, -24); (836349550, 14031617, -24); (836116730, 14027711, -24); (835881770, 14023769, -24); (835644600, 14019790, -24);
(835406200, 14015790, -24); (835166000, 14011760, -24); (834921660, 14007661, -24); (834679800, 14003603, -24); (834433900, 13999478, -24); (834189400, 13995376, -24); (833943550, 13991251, -24);
(833696660, 13987109, -24); (833449240, 13982958, -24); (833202000, 13978810, -24); (832956500, 13974691, -24); (832710900, 13970571, -24); (832466000, 13966462, -24); (832221000, 13962351, -24);
(831978900, 13958290, -24); (831739540, 13954274, -24); (831499040, 13950239, -24); (831261700, 13946257, -24); (831028100, 13942338, -24); (830794160, 13938413, -24); (830565750, 13934581, -24);
(830339700, 13930789, -24); (830116330, 13927041, -24); (829895440, 13923335, -24); (829680000, 13919721, -24); (829465700, 13916125, -24); (829257600, 13912634, -24); (829053160, 13909204, -24);
(828852800, 13905842, -24); (828658000, 13902574, -24); (828467670, 13899381, -24); (828281100, 13896251, -24); (828101900, 13893244, -24); (827925800, 13890290, -24); (827755870, 13887439, -24);
(827591360, 13884679, -24); (827434240, 13882043, -24); (827281000, 13879472, -24); (827136000, 13877039, -24); (826995900, 13874689, -24); (826862500, 13872451, -24); (826734660, 13870306, -24);
(826614300, 13868287, -24); (826501700, 13866398, -24); (826394600, 13864601, -24); (826294000, 13862913, -24); (826201800, 13861366, -24); (826116400, 13859933, -24); (826037940, 13858617, -24);
(825965800, 13857407, -24); (825902300, 13856341, -24); (825846100, 13855398, -24); (825796200, 13854561, -24); (825754600, 13853863, -24); (825720500, 13853291, -24); (825694400, 13852853, -24);
(825674240, 13852515, -24); (825664460, 13852351, -24); (825661500, 13852301, -24); (825665060, 13852361, -24); (825676140, 13852547, -24); (825695750, 13852876, -24); (825720850, 13853297, -24);
(825754600, 13853863, -24); (825796800, 13854571, -24); (825845300, 13855385, -24); (825900550, 13856312, -24); (825964150, 13857379, -24); (826035300, 13858573, -24); (826112800, 13859873, -24);
(826198160, 13861305, -24); (826289830, 13862843, -24); (826388240, 13864494, -24); (826492370, 13866241, -24); (826605440, 13868138, -24); (826724200, 13870130, -24); (826849940, 13872240, -24);
(826980650, 13874433, -24); (827117300, 13876726, -24); (827259900, 13879118, -24); (827410160, 13881639, -24); (827566740, 13884266, -24); (827725700, 13886933, -24); (827891200, 13889709, -24);
(828064300, 13892614, -24); (828240700, 13895573, -24); (828420900, 13898596, -24); (828605200, 13901688, -24); (828796000, 13904890, -24); (828990640, 13908155, -24); (829190700, 13911511, -24)].

(** src/oscillator/lookup_tables/bl_rect.rs:2235-2437 *)
Definition bl_rect_11 : list (Z * Z * Z) := [
(829392500, 13914897, -24); (829598500, 13918353, -24); (829809250, 13921889, -24); (830022100, 13925460, -24); (830238760, 13929095, -24); (830455240, 13932727, -24); (830679000, 13936481, -24);
(830903050, 13940240, -24); (831130200, 13944051, -24); (831357060, 13947857, -24); (831588750, 13951744, -24); (831818700, 13955602, -24); (832051750, 13959512, -24); (832286500, 13963450, -24);
(832519950, 13967367, -24); (832756300, 13971332, -24); (832990400, 13975260, -24); (833228350, 13979252, -24); (833463670, 13983200, -24); (833699200, 13987152, -24); (833933700, 13991086, -24);
(834167700, 13995012, -24); (834400360, 13998915, -24); (834631900, 14002800, -24); (834862230, 14006664, -24); (835090460, 14010493, -24); (835317100, 14014295, -24); (835542400, 14018075, -24);
(835763500, 14021785, -24); (835982560, 14025460, -24); (836199700, 14029103, -24); (836412970, 14032681, -24); (836622830, 14036202, -24); (836831600, 14039705, -24); (837034640, 14043111, -24);
(837233070, 14046440, -24); (837428400, 14049717, -24); (837619700, 14052927, -24); (837808670, 14056097, -24); (837989030, 14059123, -24); (838165500, 14062084, -24); (838338850, 14064992, -24);
(838506200, 14067800, -24); (838668000, 14070514, -24); (838824800, 14073145, -24); (838977000, 14075698, -24); (839121500, 14078123, -24); (839261800, 14080476, -24); (839397850, 14082759, -24);
(839523550, 14084868, -24); (839644550, 14086898, -24); (839759470, 14088826, -24); (839869500, 14090672, -24); (839969640, 14092352, -24); (840066400, 14093975, -24); (840154800, 14095459, -24);
(840237800, 14096851, -24); (840311470, 14098087, -24); (840379360, 14099226, -24); (840442400, 14100284, -24); (840495770, 14101179, -24); (840543500, 14101980, -24); (840582000, 14102626, -24);
(840614800, 14103176, -24); (840640100, 14103601, -24); (840657350, 14103890, -24); (840668400, 14104075, -24); (840671900, 14104134, -24); (840668900, 14104084, -24); (840658000, 14103901, -24);
(840641200, 14103619, -24); (840615030, 14103180, -24); (840582400, 14102632, -24); (840542500, 14101963, -24); (840496100, 14101185, -24); (840442700, 14100289, -24); (840383300, 14099292, -24);
(840313850, 14098127, -24); (840240400, 14096895, -24); (840158200, 14095516, -24); (840070700, 14094048, -24); (839976850, 14092473, -24); (839874570, 14090757, -24); (839768470, 14088977, -24);
(839656500, 14087098, -24); (839536370, 14085083, -24); (839410250, 14082967, -24); (839277150, 14080734, -24); (839141600, 14078460, -24); (838998260, 14076055, -24); (838850140, 14073570, -24);
(838696360, 14070990, -24); (838537450, 14068324, -24); (838373840, 14065579, -24); (838204600, 14062740, -24); (838032960, 14059860, -24); (837853300, 14056846, -24); (837671800, 14053801, -24);
(837485300, 14050672, -24); (837295300, 14047484, -24); (837102000, 14044241, -24); (836904400, 14040926, -24); (836702940, 14037546, -24); (836499450, 14034132, -24); (836292200, 14030655, -24);
(836082700, 14027140, -24); (835870000, 14023572, -24); (835657000, 14019998, -24); (835439400, 14016347, -24); (835222300, 14012705, -24); (835001000, 14008992, -24); (834778130, 14005253, -24);
(834554800, 14001506, -24); (834331630, 13997762, -24); (834107100, 13993995, -24); (833881260, 13990206, -24); (833655060, 13986411, -24); (833430100, 13982637, -24); (833204300, 13978849, -24);
(832980000, 13975085, -24); (832755740, 13971323, -24); (832531600, 13967562, -24); (832306860, 13963792, -24); (832085300, 13960075, -24); (831865970, 13956395, -24); (831646000, 13952705, -24);
(831428950, 13949063, -24); (831213060, 13945441, -24); (831002530, 13941909, -24); (830792000, 13938377, -24); (830583930, 13934886, -24); (830380300, 13931470, -24); (830177700, 13928071, -24);
(829978500, 13924729, -24); (829785100, 13921484, -24); (829595000, 13918295, -24); (829407040, 13915141, -24); (829225060, 13912088, -24); (829045800, 13909080, -24); (828870530, 13906140, -24);
(828700200, 13903282, -24); (828534000, 13900494, -24); (828373400, 13897799, -24); (828218500, 13895201, -24); (828067360, 13892665, -24); (827923950, 13890259, -24); (827784700, 13887923, -24);
(827651200, 13885683, -24); (827522160, 13883518, -24); (827400450, 13881476, -24); (827284040, 13879523, -24); (827173600, 13877670, -24); (827070500, 13875940, -24); (826971700, 13874283, -24);
(826879400, 13872734, -24); (826795640, 13871329, -24); (826717850, 13870024, -24); (826644500, 13868793, -24); (826578300, 13867683, -24); (826521300, 13866726, -24); (826468470, 13865840, -24);
(826424200, 13865097, -24); (826386330, 13864462, -24); (826355040, 13863937, -24); (826330800, 13863530, -24); (826312840, 13863229, -24); (826304140, 13863083, -24); (826298300, 13862985, -24);
(826301800, 13863044, -24); (826313260, 13863236, -24); (826331500, 13863542, -24); (826354200, 13863923, -24); (826386400, 13864463, -24); (826424900, 13865109, -24); (826468050, 13865833, -24);
(826521750, 13866734, -24); (826578500, 13867686, -24); (826643000, 13868768, -24); (826714300, 13869964, -24); (826791640, 13871262, -24); (826875570, 13872670, -24); (826965200, 13874174, -24);
(827062100, 13875799, -24); (827165800, 13877539, -24); (827275000, 13879371, -24); (827390130, 13881303, -24); (827508800, 13883294, -24); (827636540, 13885437, -24); (827767130, 13887628, -24);
(827904800, 13889938, -24); (828045600, 13892300, -24); (828193300, 13894778, -24); (828346900, 13897355, -24); (828503800, 13899987, -24); (828665600, 13902702, -24); (828831430, 13905484, -24);
(829001800, 13908342, -24); (829177500, 13911290, -24); (829355500, 13914276, -24); (829537150, 13917324, -24); (829722700, 13920437, -24); (829913560, 13923639, -24); (830105300, 13926856, -24)].

(** src/oscillator/lookup_tables/bl_rect.rs:2438-2640 *)
Definition bl_rect_12 : list (Z * Z * Z) := [
(830299700, 13930117, -24); (830499650, 13933472, -24); (830700460, 13936841, -24); (830904400, 13940263, -24); (831109100, 13943697, -24); (831318700, 13947213, -24); (831527950, 13950724, -24);
(831739700, 13954277, -24); (831950370, 13957811, -24); (832164050, 13961396, -24); (832377140, 13964971, -24); (832594160, 13968612, -24); (832810800, 13972247, -24); (833027400, 13975881, -24);
(833243970, 13979514, -24); (833460800, 13983152, -24); (833677300, 13986784, -24); (833892100, 13990388, -24); (834106450, 13993984, -24); (834320840, 13997581, -24); (834533500, 14001149, -24);
(834746060, 14004715, -24); (834955600, 14008230, -24); (835163700, 14011722, -24); (835368300, 14015154, -24); (835574870, 14018620, -24); (835775550, 14021987, -24); (835974040, 14025317, -24);
(836170900, 14028620, -24); (836364270, 14031864, -24); (836554300, 14035052, -24); (836739600, 14038161, -24); (836923100, 14041240, -24); (837103960, 14044274, -24); (837280040, 14047228, -24);
(837451700, 14050108, -24); (837618900, 14052913, -24); (837782500, 14055658, -24); (837941100, 14058319, -24); (838094950, 14060900, -24); (838243070, 14063385, -24); (838385940, 14065782, -24);
(838527000, 14068149, -24); (838660960, 14070396, -24); (838788400, 14072534, -24); (838911830, 14074605, -24); (839029500, 14076579, -24); (839139500, 14078425, -24); (839246450, 14080219, -24);
(839347840, 14081920, -24); (839441000, 14083483, -24); (839528300, 14084948, -24); (839609200, 14086305, -24); (839685000, 14087577, -24); (839754800, 14088748, -24); (839816000, 14089774, -24);
(839873250, 14090735, -24); (839923700, 14091581, -24); (839965460, 14092282, -24); (840002900, 14092910, -24); (840031500, 14093390, -24); (840055940, 14093800, -24); (840072930, 14094085, -24);
(840082760, 14094250, -24); (840085300, 14094293, -24); (840081800, 14094234, -24); (840073200, 14094090, -24); (840056840, 14093815, -24); (840030550, 14093374, -24); (840005400, 14092952, -24);
(839966800, 14092304, -24); (839924400, 14091593, -24); (839873900, 14090746, -24); (839818840, 14089822, -24); (839756370, 14088774, -24); (839687050, 14087611, -24); (839611770, 14086348, -24);
(839532100, 14085011, -24); (839446300, 14083572, -24); (839352600, 14082000, -24); (839254100, 14080347, -24); (839150850, 14078615, -24); (839038300, 14076727, -24); (838923800, 14074806, -24);
(838803050, 14072780, -24); (838676700, 14070660, -24); (838544130, 14068436, -24); (838407160, 14066138, -24); (838267860, 14063801, -24); (838121200, 14061340, -24); (837969800, 14058800, -24);
(837813560, 14056179, -24); (837655800, 14053532, -24); (837490600, 14050761, -24); (837323000, 14047949, -24); (837152600, 14045090, -24); (836976400, 14042134, -24); (836798100, 14039142, -24);
(836615700, 14036082, -24); (836429060, 14032951, -24); (836243570, 14029839, -24); (836051100, 14026610, -24); (835859200, 14023390, -24); (835664330, 14020121, -24); (835465970, 14016793, -24);
(835267840, 14013469, -24); (835065070, 14010067, -24); (834862800, 14006674, -24); (834658300, 14003243, -24); (834452570, 13999791, -24); (834245860, 13996323, -24); (834040460, 13992877, -24);
(833832140, 13989382, -24); (833623300, 13985878, -24); (833415750, 13982396, -24); (833208000, 13978911, -24); (833000100, 13975423, -24); (832792600, 13971941, -24); (832585500, 13968467, -24);
(832381600, 13965046, -24); (832177000, 13961613, -24); (831972700, 13958186, -24); (831771400, 13954808, -24); (831572400, 13951470, -24); (831372740, 13948120, -24); (831178300, 13944858, -24);
(830983400, 13941588, -24); (830792370, 13938383, -24); (830604600, 13935233, -24); (830420000, 13932136, -24); (830235700, 13929044, -24); (830055240, 13926016, -24); (829880950, 13923092, -24);
(829706000, 13920157, -24); (829538700, 13917350, -24); (829373000, 13914570, -24); (829211400, 13911859, -24); (829055700, 13909247, -24); (828904450, 13906709, -24); (828755700, 13904213, -24);
(828610500, 13901777, -24); (828472500, 13899462, -24); (828340230, 13897243, -24); (828211370, 13895081, -24); (828086260, 13892982, -24); (827968660, 13891009, -24); (827857400, 13889142, -24);
(827748540, 13887316, -24); (827647000, 13885612, -24); (827552700, 13884030, -24); (827461400, 13882499, -24); (827375700, 13881061, -24); (827296800, 13879737, -24); (827226400, 13878556, -24);
(827158900, 13877424, -24); (827098900, 13876417, -24); (827045100, 13875514, -24); (826996560, 13874700, -24); (826956150, 13874022, -24); (826920200, 13873419, -24); (826890300, 13872917, -24);
(826869200, 13872563, -24); (826852860, 13872289, -24); (826843200, 13872127, -24); (826840000, 13872073, -24); (826841950, 13872106, -24); (826852440, 13872282, -24); (826869100, 13872561, -24);
(826891960, 13872945, -24); (826921700, 13873444, -24); (826955850, 13874017, -24); (826996800, 13874704, -24); (827044550, 13875505, -24); (827098550, 13876411, -24); (827157140, 13877394, -24);
(827222000, 13878482, -24); (827295840, 13879721, -24); (827372900, 13881014, -24); (827458140, 13882444, -24); (827547200, 13883938, -24); (827640060, 13885496, -24); (827739800, 13887169, -24);
(827846300, 13888956, -24); (827957330, 13890819, -24); (828073900, 13892775, -24); (828196350, 13894829, -24); (828323100, 13896956, -24); (828454400, 13899158, -24); (828589860, 13901431, -24);
(828730300, 13903787, -24); (828875240, 13906219, -24); (829024600, 13908725, -24); (829178200, 13911302, -24); (829337100, 13913968, -24); (829496600, 13916644, -24); (829662440, 13919426, -24);
(829831660, 13922265, -24); (830004160, 13925159, -24); (830178200, 13928079, -24); (830355700, 13931057, -24); (830536200, 13934085, -24); (830718900, 13937150, -24); (830907170, 13940309, -24)].

(** src/oscillator/lookup_tables/bl_rect.rs:2641-2843 *)
Definition bl_rect_13 : list (Z * Z * Z) := [
(831093550, 13943436, -24); (831284460, 13946639, -24); (831476300, 13949857, -24); (831668600, 13953084, -24); (831864950, 13956378, -24); (832061770, 13959680, -24); (832259000, 13962989, -24);
(832458140, 13966330, -24); (832657400, 13969673, -24); (832857850, 13973036, -24); (833056450, 13976368, -24); (833257560, 13979742, -24); (833456800, 13983085, -24); (833656000, 13986427, -24);
(833856000, 13989782, -24); (834054400, 13993111, -24); (834255100, 13996478, -24); (834450540, 13999757, -24); (834645030, 14003020, -24); (834838400, 14006264, -24); (835031450, 14009503, -24);
(835221650, 14012694, -24); (835411800, 14015884, -24); (835597600, 14019001, -24); (835782050, 14022096, -24); (835963370, 14025138, -24); (836140900, 14028116, -24); (836317700, 14031083, -24);
(836491200, 14033994, -24); (836660270, 14036830, -24); (836827200, 14039631, -24); (836987800, 14042325, -24); (837147950, 14045012, -24); (837301700, 14047591, -24); (837453900, 14050145, -24);
(837598150, 14052565, -24); (837742100, 14054980, -24); (837881100, 14057312, -24); (838013770, 14059538, -24); (838142630, 14061700, -24); (838265900, 14063768, -24); (838386540, 14065792, -24);
(838499900, 14067694, -24); (838608150, 14069510, -24); (838711700, 14071247, -24); (838810400, 14072903, -24); (838902240, 14074444, -24); (838988900, 14075898, -24); (839069400, 14077249, -24);
(839144770, 14078513, -24); (839214700, 14079686, -24); (839278160, 14080751, -24); (839336160, 14081724, -24); (839388670, 14082605, -24); (839434700, 14083377, -24); (839474100, 14084038, -24);
(839509200, 14084627, -24); (839535360, 14085066, -24); (839560200, 14085483, -24); (839574460, 14085722, -24); (839583500, 14085874, -24); (839586500, 14085924, -24); (839582700, 14085860, -24);
(839573440, 14085705, -24); (839558600, 14085456, -24); (839537200, 14085097, -24); (839508400, 14084614, -24); (839475100, 14084055, -24); (839436350, 14083405, -24); (839390000, 14082627, -24);
(839340030, 14081789, -24); (839279530, 14080774, -24); (839217700, 14079737, -24); (839149240, 14078588, -24); (839073800, 14077322, -24); (838993100, 14075968, -24); (838907060, 14074525, -24);
(838815900, 14072996, -24); (838719370, 14071376, -24); (838617100, 14069660, -24); (838510630, 14067874, -24); (838398460, 14065992, -24); (838280260, 14064009, -24); (838157100, 14061943, -24);
(838030460, 14059818, -24); (837901350, 14057652, -24); (837766230, 14055385, -24); (837624130, 14053001, -24); (837482330, 14050622, -24); (837332670, 14048111, -24); (837181700, 14045578, -24);
(837026600, 14042976, -24); (836867330, 14040304, -24); (836705740, 14037593, -24); (836538850, 14034793, -24); (836370770, 14031973, -24); (836200240, 14029112, -24); (836026430, 14026196, -24);
(835847400, 14023192, -24); (835669040, 14020200, -24); (835487400, 14017153, -24); (835306100, 14014111, -24); (835120300, 14010994, -24); (834934600, 14007878, -24); (834745300, 14004702, -24);
(834554850, 14001507, -24); (834364350, 13998311, -24); (834175500, 13995143, -24); (833982650, 13991907, -24); (833789600, 13988668, -24); (833597200, 13985440, -24); (833405000, 13982216, -24);
(833210200, 13978947, -24); (833018540, 13975732, -24); (832827030, 13972519, -24); (832635160, 13969300, -24); (832444670, 13966104, -24); (832255200, 13962925, -24); (832066060, 13959752, -24);
(831878700, 13956609, -24); (831693500, 13953501, -24); (831509500, 13950414, -24); (831329460, 13947394, -24); (831147850, 13944347, -24); (830971300, 13941385, -24); (830795100, 13938429, -24);
(830625500, 13935583, -24); (830454230, 13932710, -24); (830288350, 13929927, -24); (830123700, 13927165, -24); (829965300, 13924507, -24); (829807000, 13921851, -24); (829654700, 13919296, -24);
(829503700, 13916763, -24); (829358800, 13914332, -24); (829218600, 13911980, -24); (829080340, 13909660, -24); (828948140, 13907442, -24); (828817900, 13905257, -24); (828695600, 13903205, -24);
(828574600, 13901175, -24); (828460500, 13899261, -24); (828350960, 13897423, -24); (828247130, 13895681, -24); (828147400, 13894008, -24); (828051570, 13892400, -24); (827964840, 13890945, -24);
(827881000, 13889538, -24); (827800600, 13888189, -24); (827728900, 13886987, -24); (827659400, 13885821, -24); (827598400, 13884797, -24); (827544100, 13883886, -24); (827493670, 13883040, -24);
(827449200, 13882294, -24); (827410760, 13881649, -24); (827378700, 13881111, -24); (827351300, 13880651, -24); (827331070, 13880312, -24); (827316200, 13880063, -24); (827307300, 13879913, -24);
(827304300, 13879863, -24); (827306500, 13879900, -24); (827316940, 13880075, -24); (827331100, 13880313, -24); (827351800, 13880660, -24); (827377800, 13881096, -24); (827410700, 13881648, -24);
(827447350, 13882263, -24); (827493300, 13883034, -24); (827542400, 13883858, -24); (827597400, 13884780, -24); (827659200, 13885817, -24); (827725600, 13886931, -24); (827797530, 13888138, -24);
(827876450, 13889462, -24); (827960100, 13890865, -24); (828048300, 13892345, -24); (828140560, 13893893, -24); (828238800, 13895541, -24); (828341600, 13897266, -24); (828450500, 13899093, -24);
(828562800, 13900977, -24); (828680200, 13902947, -24); (828802200, 13904994, -24); (828930400, 13907144, -24); (829059840, 13909316, -24); (829194900, 13911582, -24); (829334860, 13913930, -24);
(829476900, 13916313, -24); (829622270, 13918752, -24); (829771700, 13921259, -24); (829927860, 13923879, -24); (830083250, 13926486, -24); (830242100, 13929151, -24); (830404700, 13931879, -24);
(830569900, 13934651, -24); (830738540, 13937480, -24); (830908800, 13940336, -24); (831081200, 13943229, -24); (831256500, 13946170, -24); (831433400, 13949138, -24); (831608950, 13952083, -24)].

(** src/oscillator/lookup_tables/bl_rect.rs:2844-3046 *)
Definition bl_rect_14 : list (Z * Z * Z) := [
(831790270, 13955125, -24); (831974150, 13958210, -24); (832155470, 13961252, -24); (832338040, 13964315, -24); (832525200, 13967455, -24); (832709800, 13970552, -24); (832895300, 13973664, -24);
(833081540, 13976789, -24); (833267800, 13979914, -24); (833454970, 13983054, -24); (833640640, 13986169, -24); (833823600, 13989239, -24); (834010000, 13992366, -24); (834192500, 13995428, -24);
(834377200, 13998527, -24); (834557950, 14001559, -24); (834739300, 14004602, -24); (834919040, 14007617, -24); (835095600, 14010579, -24); (835268860, 14013486, -24); (835444030, 14016425, -24);
(835616500, 14019319, -24); (835782600, 14022105, -24); (835949500, 14024905, -24); (836116140, 14027701, -24); (836274600, 14030360, -24); (836431800, 14032997, -24); (836586600, 14035594, -24);
(836738170, 14038137, -24); (836884900, 14040599, -24); (837030230, 14043037, -24); (837169600, 14045375, -24); (837306900, 14047679, -24); (837438000, 14049878, -24); (837569500, 14052084, -24);
(837689700, 14054101, -24); (837811200, 14056139, -24); (837926200, 14058069, -24); (838037600, 14059938, -24); (838143350, 14061712, -24); (838244560, 14063410, -24); (838341060, 14065029, -24);
(838432200, 14066558, -24); (838517200, 14067984, -24); (838598900, 14069355, -24); (838673650, 14070609, -24); (838744340, 14071795, -24); (838809670, 14072891, -24); (838867660, 14073864, -24);
(838923300, 14074797, -24); (838970960, 14075597, -24); (839013760, 14076315, -24); (839052100, 14076958, -24); (839084150, 14077496, -24); (839108600, 14077906, -24); (839129450, 14078256, -24);
(839141850, 14078464, -24); (839153500, 14078660, -24); (839155700, 14078696, -24); (839151300, 14078623, -24); (839143500, 14078492, -24); (839128600, 14078242, -24); (839110000, 14077930, -24);
(839082840, 14077474, -24); (839051400, 14076947, -24); (839015700, 14076348, -24); (838972400, 14075621, -24); (838924300, 14074814, -24); (838870640, 14073914, -24); (838811900, 14072928, -24);
(838746300, 14071828, -24); (838677940, 14070681, -24); (838601650, 14069401, -24); (838522140, 14068067, -24); (838437860, 14066653, -24); (838348270, 14065150, -24); (838255350, 14063591, -24);
(838152400, 14061864, -24); (838048340, 14060118, -24); (837939100, 14058285, -24); (837823800, 14056351, -24); (837708060, 14054409, -24); (837586340, 14052367, -24); (837458670, 14050225, -24);
(837329270, 14048054, -24); (837197500, 14045843, -24); (837056800, 14043483, -24); (836915550, 14041113, -24); (836770900, 14038686, -24); (836622700, 14036200, -24); (836472000, 14033671, -24);
(836316940, 14031070, -24); (836158340, 14028409, -24); (836000740, 14025765, -24); (835838900, 14023050, -24); (835673400, 14020273, -24); (835507200, 14017485, -24); (835337300, 14014634, -24);
(835166600, 14011770, -24); (834994800, 14008888, -24); (834819800, 14005952, -24); (834645450, 14003027, -24); (834468200, 14000053, -24); (834292700, 13997109, -24); (834113060, 13994095, -24);
(833934300, 13991096, -24); (833753470, 13988062, -24); (833575200, 13985071, -24); (833395060, 13982049, -24); (833215950, 13979044, -24); (833036000, 13976025, -24); (832857130, 13973024, -24);
(832678440, 13970026, -24); (832500930, 13967048, -24); (832324150, 13964082, -24); (832148970, 13961143, -24); (831973700, 13958202, -24); (831801300, 13955310, -24); (831627900, 13952401, -24);
(831460540, 13949593, -24); (831290660, 13946743, -24); (831126750, 13943993, -24); (830964500, 13941271, -24); (830801500, 13938536, -24); (830643700, 13935889, -24); (830489200, 13933297, -24);
(830337600, 13930753, -24); (830188000, 13928243, -24); (830042300, 13925799, -24); (829898540, 13923387, -24); (829759600, 13921056, -24); (829623460, 13918772, -24); (829492870, 13916581, -24);
(829364300, 13914424, -24); (829239670, 13912333, -24); (829119600, 13910319, -24); (829002260, 13908350, -24); (828892500, 13906509, -24); (828787400, 13904745, -24); (828682840, 13902991, -24);
(828585150, 13901352, -24); (828494250, 13899827, -24); (828405440, 13898337, -24); (828320800, 13896917, -24); (828241600, 13895588, -24); (828170960, 13894403, -24); (828102470, 13893254, -24);
(828039650, 13892200, -24); (827982000, 13891233, -24); (827929500, 13890352, -24); (827883200, 13889575, -24); (827841640, 13888878, -24); (827805340, 13888269, -24); (827773870, 13887741, -24);
(827750700, 13887352, -24); (827728800, 13886985, -24); (827716100, 13886772, -24); (827708900, 13886651, -24); (827706300, 13886607, -24); (827707200, 13886622, -24); (827716230, 13886774, -24);
(827730830, 13887019, -24); (827750100, 13887342, -24); (827775240, 13887764, -24); (827802840, 13888227, -24); (827840300, 13888856, -24); (827881600, 13889548, -24); (827929100, 13890345, -24);
(827980800, 13891213, -24); (828036960, 13892155, -24); (828100440, 13893220, -24); (828168200, 13894357, -24); (828238300, 13895533, -24); (828317400, 13896860, -24); (828399600, 13898239, -24);
(828486700, 13899700, -24); (828579550, 13901258, -24); (828674850, 13902857, -24); (828774870, 13904535, -24); (828879950, 13906298, -24); (828991000, 13908161, -24); (829104840, 13910071, -24);
(829223600, 13912063, -24); (829344750, 13914096, -24); (829471200, 13916217, -24); (829599260, 13918366, -24); (829732900, 13920608, -24); (829871700, 13922937, -24); (830009160, 13925243, -24);
(830154400, 13927680, -24); (830300000, 13930122, -24); (830449000, 13932622, -24); (830600740, 13935168, -24); (830755950, 13937772, -24); (830914260, 13940428, -24); (831072570, 13943084, -24);
(831232960, 13945775, -24); (831395270, 13948498, -24); (831561270, 13951283, -24); (831728340, 13954086, -24); (831897560, 13956925, -24); (832067000, 13959768, -24); (832237700, 13962632, -24)].

(** src/oscillator/lookup_tables/bl_rect.rs:3047-3249 *)
Definition bl_rect_15 : list (Z * Z * Z) := [
(832407700, 13965484, -24); (832580800, 13968388, -24); (832752800, 13971274, -24); (832928400, 13974220, -24); (833102760, 13977145, -24); (833276300, 13980056, -24); (833449800, 13982967, -24);
(833624400, 13985897, -24); (833794360, 13988748, -24); (833969830, 13991692, -24); (834141700, 13994575, -24); (834313600, 13997459, -24); (834482250, 14000289, -24); (834650640, 14003114, -24);
(834818100, 14005924, -24); (834983800, 14008704, -24); (835147900, 14011457, -24); (835308600, 14014153, -24); (835470400, 14016867, -24); (835626900, 14019493, -24); (835783400, 14022119, -24);
(835936100, 14024681, -24); (836085740, 14027191, -24); (836233440, 14029669, -24); (836378900, 14032109, -24); (836520550, 14034486, -24); (836657350, 14036781, -24); (836791800, 14039037, -24);
(836924600, 14041265, -24); (837050740, 14043381, -24); (837174240, 14045453, -24); (837296100, 14047498, -24); (837411400, 14049432, -24); (837524240, 14051325, -24); (837631500, 14053125, -24);
(837735650, 14054872, -24); (837832030, 14056489, -24); (837928600, 14058109, -24); (838018660, 14059620, -24); (838103200, 14061038, -24); (838184400, 14062401, -24); (838259940, 14063668, -24);
(838330100, 14064845, -24); (838394900, 14065932, -24); (838457350, 14066980, -24); (838512540, 14067906, -24); (838562370, 14068742, -24); (838608150, 14069510, -24); (838648900, 14070194, -24);
(838682600, 14070759, -24); (838713600, 14071279, -24); (838738000, 14071689, -24); (838755250, 14071978, -24); (838768600, 14072202, -24); (838776500, 14072335, -24); (838778900, 14072375, -24);
(838778000, 14072360, -24); (838767900, 14072190, -24); (838756200, 14071994, -24); (838736400, 14071662, -24); (838712750, 14071265, -24); (838682600, 14070759, -24); (838647840, 14070176, -24);
(838609340, 14069530, -24); (838563140, 14068755, -24); (838513800, 14067927, -24); (838458900, 14067006, -24); (838398930, 14066000, -24); (838331940, 14064876, -24); (838263700, 14063731, -24);
(838189700, 14062490, -24); (838108600, 14061129, -24); (838023400, 14059700, -24); (837937200, 14058253, -24); (837841200, 14056643, -24); (837744600, 14055022, -24); (837642970, 14053317, -24);
(837534960, 14051505, -24); (837425100, 14049662, -24); (837310550, 14047740, -24); (837190400, 14045724, -24); (837069870, 14043702, -24); (836943600, 14041584, -24); (836815500, 14039434, -24);
(836683300, 14037216, -24); (836548900, 14034962, -24); (836409500, 14032623, -24); (836267530, 14030241, -24); (836123400, 14027823, -24); (835976840, 14025364, -24); (835828070, 14022868, -24);
(835675540, 14020309, -24); (835519730, 14017695, -24); (835363570, 14015075, -24); (835207700, 14012460, -24); (835047500, 14009772, -24); (834885540, 14007055, -24); (834721600, 14004305, -24);
(834558960, 14001576, -24); (834392850, 13998789, -24); (834226700, 13996002, -24); (834059600, 13993198, -24); (833894400, 13990426, -24); (833726200, 13987605, -24); (833555100, 13984734, -24);
(833388300, 13981936, -24); (833219200, 13979098, -24); (833049500, 13976251, -24); (832882760, 13973454, -24); (832716100, 13970658, -24); (832548860, 13967852, -24); (832382900, 13965068, -24);
(832218300, 13962306, -24); (832057200, 13959603, -24); (831894000, 13956865, -24); (831732450, 13954155, -24); (831574260, 13951501, -24); (831416300, 13948851, -24); (831262470, 13946270, -24);
(831111400, 13943735, -24); (830958300, 13941167, -24); (830812160, 13938715, -24); (830666240, 13936267, -24); (830521800, 13933844, -24); (830383240, 13931519, -24); (830245730, 13929212, -24);
(830111560, 13926961, -24); (829981700, 13924782, -24); (829854500, 13922648, -24); (829731760, 13920589, -24); (829611000, 13918563, -24); (829493300, 13916588, -24); (829384150, 13914757, -24);
(829272500, 13912884, -24); (829168260, 13911135, -24); (829069900, 13909485, -24); (828971700, 13907837, -24); (828882900, 13906347, -24); (828793600, 13904849, -24); (828712460, 13903488, -24);
(828633960, 13902171, -24); (828560230, 13900934, -24); (828491870, 13899787, -24); (828428570, 13898725, -24); (828371350, 13897765, -24); (828316000, 13896836, -24); (828267750, 13896027, -24);
(828223200, 13895280, -24); (828183900, 13894620, -24); (828150500, 13894060, -24); (828122700, 13893593, -24); (828098400, 13893186, -24); (828081130, 13892896, -24); (828067600, 13892669, -24);
(828060600, 13892552, -24); (828055200, 13892461, -24); (828060600, 13892552, -24); (828070040, 13892710, -24); (828080500, 13892885, -24); (828098540, 13893188, -24); (828121100, 13893567, -24);
(828150600, 13894061, -24); (828183950, 13894621, -24); (828223170, 13895279, -24); (828265960, 13895997, -24); (828314700, 13896815, -24); (828367800, 13897706, -24); (828428270, 13898720, -24);
(828490300, 13899761, -24); (828558100, 13900898, -24); (828631100, 13902123, -24); (828708200, 13903416, -24); (828789800, 13904785, -24); (828877150, 13906251, -24); (828965000, 13907725, -24);
(829060550, 13909328, -24); (829159700, 13910991, -24); (829264500, 13912750, -24); (829371040, 13914537, -24); (829481500, 13916390, -24); (829596600, 13918321, -24); (829712100, 13920259, -24);
(829834200, 13922308, -24); (829958000, 13924385, -24); (830086700, 13926544, -24); (830219400, 13928770, -24); (830353560, 13931021, -24); (830490300, 13933315, -24); (830630600, 13935669, -24);
(830773100, 13938060, -24); (830917900, 13940489, -24); (831065900, 13942972, -24); (831215260, 13945478, -24); (831367900, 13948039, -24); (831519500, 13950582, -24); (831675950, 13953207, -24);
(831831100, 13955810, -24); (831987200, 13958429, -24); (832147900, 13961125, -24); (832309070, 13963829, -24); (832469460, 13966520, -24); (832632000, 13969247, -24); (832791750, 13971927, -24)].

(** src/oscillator/lookup_tables/bl_rect.rs:3250-3452 *)
Definition bl_rect_16 : list (Z * Z * Z) := [
(832958300, 13974721, -24); (833120300, 13977439, -24); (833283600, 13980179, -24); (833446200, 13982907, -24); (833607300, 13985610, -24); (833770600, 13988349, -24); (833932700, 13991069, -24);
(834094940, 13993791, -24); (834255400, 13996483, -24); (834415560, 13999170, -24); (834574340, 14001834, -24); (834728660, 14004423, -24); (834883450, 14007020, -24); (835038300, 14009618, -24);
(835190700, 14012175, -24); (835341800, 14014710, -24); (835490050, 14017197, -24); (835637150, 14019665, -24); (835780600, 14022072, -24); (835919600, 14024404, -24); (836058300, 14026731, -24);
(836194750, 14029020, -24); (836329160, 14031275, -24); (836458270, 14033441, -24); (836583730, 14035546, -24); (836708000, 14037631, -24); (836827640, 14039638, -24); (836941600, 14041550, -24);
(837055560, 14043462, -24); (837165360, 14045304, -24); (837269500, 14047051, -24); (837372200, 14048774, -24); (837468000, 14050382, -24); (837562200, 14051962, -24); (837651700, 14053464, -24);
(837733900, 14054843, -24); (837813850, 14056184, -24); (837891940, 14057494, -24); (837961140, 14058655, -24); (838029440, 14059801, -24); (838090060, 14060818, -24); (838144840, 14061737, -24);
(838198700, 14062641, -24); (838247000, 14063451, -24); (838290750, 14064185, -24); (838326500, 14064785, -24); (838359530, 14065339, -24); (838386500, 14065791, -24); (838410850, 14066200, -24);
(838427070, 14066472, -24); (838440100, 14066691, -24); (838448460, 14066831, -24); (838449840, 14066854, -24); (838447900, 14066822, -24); (838438630, 14066666, -24); (838428140, 14066490, -24);
(838410100, 14066187, -24); (838384100, 14065751, -24); (838358940, 14065329, -24); (838326800, 14064790, -24); (838292300, 14064211, -24); (838247500, 14063459, -24); (838200300, 14062667, -24);
(838148000, 14061790, -24); (838089940, 14060816, -24); (838028500, 14059785, -24); (837963100, 14058688, -24); (837894400, 14057535, -24); (837819900, 14056285, -24); (837739200, 14054932, -24);
(837657000, 14053552, -24); (837568640, 14052070, -24); (837476730, 14050528, -24); (837380300, 14048910, -24); (837280700, 14047239, -24); (837178300, 14045521, -24); (837068800, 14043684, -24);
(836958200, 14041829, -24); (836843800, 14039909, -24); (836726800, 14037946, -24); (836605300, 14035908, -24); (836481450, 14033830, -24); (836353240, 14031679, -24); (836223240, 14029498, -24);
(836088360, 14027235, -24); (835955100, 14024999, -24); (835814300, 14022637, -24); (835675500, 14020308, -24); (835532550, 14017910, -24); (835388700, 14015497, -24); (835241730, 14013031, -24);
(835092070, 14010520, -24); (834941150, 14007988, -24); (834790200, 14005456, -24); (834635800, 14002865, -24); (834482670, 14000296, -24); (834326570, 13997677, -24); (834172700, 13995096, -24);
(834013200, 13992420, -24); (833855600, 13989776, -24); (833699460, 13987156, -24); (833539660, 13984475, -24); (833380500, 13981805, -24); (833221400, 13979135, -24); (833063400, 13976485, -24);
(832908100, 13973879, -24); (832748800, 13971206, -24); (832593500, 13968601, -24); (832438400, 13965999, -24); (832282250, 13963379, -24); (832129700, 13960820, -24); (831976650, 13958252, -24);
(831826400, 13955731, -24); (831675470, 13953199, -24); (831528600, 13950735, -24); (831384200, 13948312, -24); (831240240, 13945897, -24); (831097070, 13943495, -24); (830957900, 13941160, -24);
(830822500, 13938889, -24); (830688100, 13936634, -24); (830555860, 13934415, -24); (830427170, 13932256, -24); (830300900, 13930138, -24); (830178440, 13928083, -24); (830060500, 13926104, -24);
(829941700, 13924111, -24); (829827850, 13922201, -24); (829718770, 13920371, -24); (829615300, 13918635, -24); (829511100, 13916887, -24); (829414100, 13915260, -24); (829320600, 13913691, -24);
(829230800, 13912184, -24); (829142330, 13910700, -24); (829061900, 13909351, -24); (828986000, 13908077, -24); (828911700, 13906831, -24); (828842460, 13905669, -24); (828777900, 13904586, -24);
(828716800, 13903561, -24); (828661800, 13902638, -24); (828611200, 13901789, -24); (828564760, 13901010, -24); (828523460, 13900317, -24); (828486860, 13899703, -24); (828455000, 13899168, -24);
(828428000, 13898715, -24); (828407350, 13898369, -24); (828389170, 13898064, -24); (828376500, 13897851, -24); (828369800, 13897739, -24); (828365800, 13897672, -24); (828370300, 13897747, -24);
(828378900, 13897892, -24); (828389760, 13898074, -24); (828406300, 13898351, -24); (828429040, 13898733, -24); (828454260, 13899156, -24); (828487040, 13899706, -24); (828522900, 13900308, -24);
(828566130, 13901033, -24); (828609300, 13901757, -24); (828661100, 13902626, -24); (828717770, 13903577, -24); (828775350, 13904543, -24); (828837340, 13905583, -24); (828905760, 13906731, -24);
(828979250, 13907964, -24); (829058000, 13909285, -24); (829135700, 13910589, -24); (829221500, 13912028, -24); (829313460, 13913571, -24); (829404530, 13915099, -24); (829503200, 13916754, -24);
(829602240, 13918416, -24); (829707900, 13920189, -24); (829814700, 13921980, -24); (829929350, 13923904, -24); (830041000, 13925777, -24); (830158500, 13927748, -24); (830279350, 13929776, -24);
(830405060, 13931885, -24); (830530350, 13933987, -24); (830660160, 13936165, -24); (830790700, 13938355, -24); (830924300, 13940596, -24); (831061360, 13942896, -24); (831201200, 13945242, -24);
(831340800, 13947584, -24); (831482050, 13949954, -24); (831628200, 13952406, -24); (831772200, 13954822, -24); (831919300, 13957290, -24); (832067800, 13959781, -24); (832219200, 13962321, -24);
(832369570, 13964844, -24); (832520840, 13967382, -24); (832673200, 13969938, -24); (832828600, 13972545, -24); (832979260, 13975073, -24); (833134300, 13977674, -24); (833286900, 13980234, -24)].

(** src/oscillator/lookup_tables/bl_rect.rs:3453-3655 *)
Definition bl_rect_17 : list (Z * Z * Z) := [
(833443640, 13982864, -24); (833595040, 13985404, -24); (833748900, 13987985, -24); (833902060, 13990555, -24); (834051250, 13993058, -24); (834205400, 13995644, -24); (834355300, 13998159, -24);
(834504800, 14000667, -24); (834652400, 14003144, -24); (834798340, 14005592, -24); (834943530, 14008028, -24); (835089200, 14010472, -24); (835226060, 14012768, -24); (835367200, 14015136, -24);
(835505800, 14017461, -24); (835639900, 14019711, -24); (835775600, 14021988, -24); (835904500, 14024150, -24); (836032570, 14026299, -24); (836157900, 14028402, -24); (836279400, 14030440, -24);
(836401100, 14032482, -24); (836516260, 14034414, -24); (836626900, 14036270, -24); (836737700, 14038129, -24); (836843130, 14039898, -24); (836947100, 14041642, -24); (837045400, 14043291, -24);
(837142170, 14044915, -24); (837232700, 14046434, -24); (837320860, 14047913, -24); (837402200, 14049278, -24); (837483300, 14050638, -24); (837560060, 14051926, -24); (837629800, 14053096, -24);
(837695400, 14054197, -24); (837759300, 14055269, -24); (837817700, 14056249, -24); (837871430, 14057150, -24); (837919060, 14057949, -24); (837966700, 14058748, -24); (838006400, 14059414, -24);
(838042200, 14060015, -24); (838071900, 14060513, -24); (838097400, 14060941, -24); (838120340, 14061326, -24); (838136850, 14061603, -24); (838150300, 14061829, -24); (838154700, 14061902, -24);
(838159200, 14061978, -24); (838155030, 14061908, -24); (838148060, 14061791, -24); (838136260, 14061593, -24); (838116800, 14061267, -24); (838097400, 14060941, -24); (838070150, 14060484, -24);
(838041840, 14060009, -24); (838006850, 14059422, -24); (837967400, 14058760, -24); (837922200, 14058002, -24); (837873340, 14057182, -24); (837820770, 14056300, -24); (837762830, 14055328, -24);
(837699950, 14054273, -24); (837632830, 14053147, -24); (837562260, 14051963, -24); (837487000, 14050700, -24); (837406750, 14049354, -24); (837326600, 14048009, -24); (837238670, 14046534, -24);
(837149700, 14045041, -24); (837053660, 14043430, -24); (836959100, 14041844, -24); (836854460, 14040088, -24); (836748540, 14038311, -24); (836642150, 14036526, -24); (836532200, 14034681, -24);
(836416070, 14032733, -24); (836300250, 14030790, -24); (836179850, 14028770, -24); (836058000, 14026726, -24); (835930300, 14024583, -24); (835803500, 14022456, -24); (835671400, 14020240, -24);
(835539340, 14018024, -24); (835404000, 14015753, -24); (835269400, 14013495, -24); (835130160, 14011159, -24); (834989900, 14008806, -24); (834849000, 14006442, -24); (834704340, 14004015, -24);
(834559500, 14001585, -24); (834415100, 13999162, -24); (834265400, 13996651, -24); (834122060, 13994246, -24); (833970840, 13991709, -24); (833823300, 13989234, -24); (833674970, 13986745, -24);
(833523450, 13984203, -24); (833374600, 13981706, -24); (833227000, 13979229, -24); (833077200, 13976716, -24); (832928800, 13974226, -24); (832780660, 13971741, -24); (832632800, 13969260, -24);
(832485140, 13966783, -24); (832337260, 13964302, -24); (832195040, 13961916, -24); (832050740, 13959495, -24); (831908460, 13957108, -24); (831765800, 13954714, -24); (831629700, 13952431, -24);
(831489100, 13950072, -24); (831355100, 13947824, -24); (831218960, 13945540, -24); (831088840, 13943357, -24); (830959100, 13941180, -24); (830831400, 13939038, -24); (830707600, 13936961, -24);
(830588400, 13934961, -24); (830467200, 13932928, -24); (830352000, 13930995, -24); (830240000, 13929116, -24); (830130300, 13927275, -24); (830024240, 13925496, -24); (829920200, 13923750, -24);
(829820750, 13922082, -24); (829723830, 13920456, -24); (829630800, 13918895, -24); (829541800, 13917402, -24); (829457340, 13915985, -24); (829376900, 13914635, -24); (829299600, 13913339, -24);
(829225600, 13912097, -24); (829153840, 13910893, -24); (829090200, 13909825, -24); (829030700, 13908827, -24); (828972000, 13907842, -24); (828919800, 13906967, -24); (828871670, 13906159, -24);
(828831000, 13905477, -24); (828791440, 13904813, -24); (828755100, 13904203, -24); (828726400, 13903722, -24); (828701140, 13903298, -24); (828680160, 13902946, -24); (828663350, 13902664, -24);
(828653000, 13902490, -24); (828643500, 13902331, -24); (828644700, 13902351, -24); (828645050, 13902357, -24); (828651300, 13902462, -24); (828662400, 13902648, -24); (828679740, 13902939, -24);
(828701500, 13903304, -24); (828725300, 13903703, -24); (828757800, 13904249, -24); (828789230, 13904776, -24); (828829170, 13905446, -24); (828873200, 13906185, -24); (828920070, 13906971, -24);
(828972600, 13907852, -24); (829027350, 13908771, -24); (829089050, 13909806, -24); (829153000, 13910879, -24); (829221600, 13912030, -24); (829294440, 13913252, -24); (829371000, 13914536, -24);
(829451440, 13915886, -24); (829536740, 13917317, -24); (829620900, 13918729, -24); (829714100, 13920293, -24); (829809700, 13921897, -24); (829909560, 13923572, -24); (830013400, 13925314, -24);
(830115140, 13927021, -24); (830225900, 13928879, -24); (830335800, 13930723, -24); (830450000, 13932639, -24); (830566900, 13934600, -24); (830686700, 13936610, -24); (830807570, 13938638, -24);
(830931540, 13940718, -24); (831061660, 13942901, -24); (831189000, 13945037, -24); (831319000, 13947218, -24); (831451100, 13949435, -24); (831586800, 13951711, -24); (831724000, 13954013, -24);
(831861600, 13956322, -24); (831999660, 13958638, -24); (832142200, 13961029, -24); (832281950, 13963374, -24); (832424200, 13965761, -24); (832568050, 13968174, -24); (832712600, 13970599, -24);
(832858000, 13973039, -24); (833001260, 13975442, -24); (833149000, 13977921, -24); (833294300, 13980358, -24); (833436000, 13982736, -24); (833582760, 13985198, -24); (833726600, 13987611, -24)].

(** src/oscillator/lookup_tables/bl_rect.rs:3656-3858 *)
Definition bl_rect_18 : list (Z * Z * Z) := [
(833871960, 13990050, -24); (834015900, 13992465, -24); (834158000, 13994849, -24); (834300400, 13997238, -24); (834442440, 13999621, -24); (834582300, 14001968, -24); (834721740, 14004307, -24);
(834860440, 14006634, -24); (834992050, 14008842, -24); (835128960, 14011139, -24); (835260330, 14013343, -24); (835389000, 14015502, -24); (835517640, 14017660, -24); (835642000, 14019746, -24);
(835767300, 14021849, -24); (835886000, 14023840, -24); (836004700, 14025831, -24); (836119060, 14027750, -24); (836234750, 14029691, -24); (836342200, 14031494, -24); (836450900, 14033317, -24);
(836554300, 14035052, -24); (836653800, 14036722, -24); (836751700, 14038364, -24); (836845000, 14039929, -24); (836933430, 14041413, -24); (837022400, 14042906, -24); (837104800, 14044288, -24);
(837182940, 14045599, -24); (837259400, 14046882, -24); (837328730, 14048045, -24); (837397300, 14049195, -24); (837460400, 14050254, -24); (837520540, 14051263, -24); (837575000, 14052177, -24);
(837623500, 14052990, -24); (837673070, 14053822, -24); (837716640, 14054553, -24); (837752940, 14055162, -24); (837785900, 14055715, -24); (837816540, 14056229, -24); (837839660, 14056617, -24);
(837862900, 14057007, -24); (837876000, 14057227, -24); (837887700, 14057423, -24); (837894200, 14057532, -24); (837895500, 14057554, -24); (837891900, 14057493, -24); (837888700, 14057440, -24);
(837874050, 14057194, -24); (837862200, 14056995, -24); (837841450, 14056647, -24); (837817600, 14056247, -24); (837787200, 14055737, -24); (837752900, 14055161, -24); (837716460, 14054550, -24);
(837674140, 14053840, -24); (837627400, 14053056, -24); (837578360, 14052233, -24); (837522900, 14051303, -24); (837464450, 14050322, -24); (837401570, 14049267, -24); (837333100, 14048118, -24);
(837262900, 14046941, -24); (837188400, 14045691, -24); (837110760, 14044388, -24); (837027800, 14042996, -24); (836942000, 14041557, -24); (836851700, 14040042, -24); (836761530, 14038529, -24);
(836666300, 14036931, -24); (836565900, 14035247, -24); (836464200, 14033541, -24); (836358300, 14031764, -24); (836248930, 14029929, -24); (836138840, 14028082, -24); (836027100, 14026207, -24);
(835908700, 14024221, -24); (835790300, 14022234, -24); (835669640, 14020210, -24); (835545800, 14018132, -24); (835418200, 14015992, -24); (835293650, 14013902, -24); (835164370, 14011733, -24);
(835032460, 14009520, -24); (834898600, 14007274, -24); (834764840, 14005030, -24); (834629600, 14002761, -24); (834493340, 14000475, -24); (834354800, 13998151, -24); (834215700, 13995817, -24);
(834077100, 13993492, -24); (833935800, 13991121, -24); (833796440, 13988783, -24); (833653150, 13986379, -24); (833512540, 13984020, -24); (833371700, 13981657, -24); (833232100, 13979315, -24);
(833089300, 13976919, -24); (832948800, 13974562, -24); (832807840, 13972197, -24); (832668840, 13969865, -24); (832527900, 13967500, -24); (832390500, 13965195, -24); (832253500, 13962897, -24);
(832116370, 13960596, -24); (831983570, 13958368, -24); (831846500, 13956068, -24); (831717670, 13953907, -24); (831585000, 13951681, -24); (831457850, 13949548, -24); (831329600, 13947396, -24);
(831205900, 13945321, -24); (831084100, 13943277, -24); (830963130, 13941248, -24); (830847860, 13939314, -24); (830731400, 13937360, -24); (830619160, 13935477, -24); (830509840, 13933643, -24);
(830399630, 13931794, -24); (830299140, 13930108, -24); (830197040, 13928395, -24); (830099340, 13926756, -24); (830004500, 13925165, -24); (829912960, 13923629, -24); (829825300, 13922158, -24);
(829740940, 13920743, -24); (829661670, 13919413, -24); (829583760, 13918106, -24); (829510750, 13916881, -24); (829440800, 13915707, -24); (829376160, 13914623, -24); (829313800, 13913577, -24);
(829256000, 13912607, -24); (829201760, 13911697, -24); (829152460, 13910870, -24); (829108240, 13910128, -24); (829066160, 13909422, -24); (829030040, 13908816, -24); (828994750, 13908224, -24);
(828968940, 13907791, -24); (828944560, 13907382, -24); (828925500, 13907062, -24); (828909900, 13906800, -24); (828898200, 13906604, -24); (828893400, 13906524, -24); (828889700, 13906462, -24);
(828891800, 13906497, -24); (828897830, 13906598, -24); (828911100, 13906821, -24); (828924060, 13907038, -24); (828943670, 13907367, -24); (828967700, 13907770, -24); (828997250, 13908266, -24);
(829031900, 13908847, -24); (829067200, 13909439, -24); (829106900, 13910106, -24); (829151300, 13910850, -24); (829200400, 13911674, -24); (829253140, 13912559, -24); (829312900, 13913562, -24);
(829374550, 13914596, -24); (829438600, 13915671, -24); (829507900, 13916833, -24); (829579060, 13918027, -24); (829656300, 13919323, -24); (829735700, 13920655, -24); (829819440, 13922060, -24);
(829905300, 13923500, -24); (829996200, 13925026, -24); (830089700, 13926594, -24); (830186670, 13928221, -24); (830285900, 13929886, -24); (830388840, 13931613, -24); (830491840, 13933341, -24);
(830601900, 13935187, -24); (830711360, 13937024, -24); (830826940, 13938963, -24); (830940700, 13940872, -24); (831058860, 13942854, -24); (831179100, 13944871, -24); (831301870, 13946931, -24);
(831426300, 13949019, -24); (831551550, 13951120, -24); (831681000, 13953292, -24); (831809600, 13955449, -24); (831939640, 13957631, -24); (832071360, 13959841, -24); (832205650, 13962094, -24);
(832338300, 13964319, -24); (832474100, 13966598, -24); (832609900, 13968876, -24); (832747600, 13971186, -24); (832882600, 13973451, -24); (833021940, 13975789, -24); (833159000, 13978089, -24);
(833297700, 13980416, -24); (833435500, 13982727, -24); (833571730, 13985013, -24); (833709000, 13987316, -24); (833848600, 13989658, -24); (833981600, 13991889, -24); (834115740, 13994140, -24)].

(** src/oscillator/lookup_tables/bl_rect.rs:3859-4061 *)
Definition bl_rect_19 : list (Z * Z * Z) := [
(834253130, 13996445, -24); (834385200, 13998661, -24); (834520040, 14000923, -24); (834651350, 14003126, -24); (834781000, 14005301, -24); (834908960, 14007448, -24); (835035440, 14009570, -24);
(835161200, 14011680, -24); (835285100, 14013759, -24); (835407260, 14015808, -24); (835525040, 14017784, -24); (835640500, 14019721, -24); (835756700, 14021671, -24); (835868300, 14023543, -24);
(835978000, 14025383, -24); (836083800, 14027159, -24); (836188400, 14028913, -24); (836293500, 14030677, -24); (836389300, 14032284, -24); (836485270, 14033894, -24); (836574440, 14035390, -24);
(836664860, 14036907, -24); (836752000, 14038369, -24); (836831870, 14039709, -24); (836912700, 14041065, -24); (836987000, 14042312, -24); (837056500, 14043478, -24); (837127400, 14044667, -24);
(837191400, 14045741, -24); (837250900, 14046739, -24); (837305800, 14047660, -24); (837358300, 14048541, -24); (837406750, 14049354, -24); (837450500, 14050088, -24); (837490800, 14050764, -24);
(837528470, 14051396, -24); (837557500, 14051883, -24); (837584260, 14052332, -24); (837610000, 14052764, -24); (837628400, 14053073, -24); (837642600, 14053311, -24); (837655200, 14053522, -24);
(837660550, 14053612, -24); (837662460, 14053644, -24); (837661300, 14053625, -24); (837653760, 14053498, -24); (837642850, 14053315, -24); (837628600, 14053076, -24); (837610840, 14052778, -24);
(837585300, 14052349, -24); (837559500, 14051917, -24); (837526860, 14051369, -24); (837490700, 14050762, -24); (837452100, 14050115, -24); (837406800, 14049355, -24); (837358240, 14048540, -24);
(837306260, 14047668, -24); (837250800, 14046738, -24); (837192100, 14045753, -24); (837129100, 14044696, -24); (837061400, 14043560, -24); (836990650, 14042373, -24); (836916500, 14041129, -24);
(836839440, 14039836, -24); (836757660, 14038464, -24); (836672660, 14037038, -24); (836584150, 14035553, -24); (836494800, 14034054, -24); (836399600, 14032457, -24); (836302040, 14030820, -24);
(836202560, 14029151, -24); (836100300, 14027435, -24); (835996000, 14025685, -24); (835887250, 14023861, -24); (835776570, 14022004, -24); (835663700, 14020110, -24); (835548800, 14018183, -24);
(835431900, 14016221, -24); (835312550, 14014219, -24); (835191200, 14012183, -24); (835070000, 14010150, -24); (834944550, 14008045, -24); (834817500, 14005914, -24); (834689200, 14003761, -24);
(834561500, 14001619, -24); (834432900, 13999461, -24); (834302000, 13997265, -24); (834169300, 13995039, -24); (834036770, 13992815, -24); (833903430, 13990578, -24); (833769800, 13988336, -24);
(833636100, 13986093, -24); (833502350, 13983849, -24); (833368300, 13981600, -24); (833234000, 13979347, -24); (833098600, 13977075, -24); (832964100, 13974819, -24); (832832160, 13972605, -24);
(832698350, 13970360, -24); (832567900, 13968171, -24); (832436560, 13965968, -24); (832306300, 13963783, -24); (832177040, 13961614, -24); (832049130, 13959468, -24); (831922000, 13957335, -24);
(831795800, 13955218, -24); (831672430, 13953148, -24); (831550000, 13951094, -24); (831430700, 13949092, -24); (831312060, 13947102, -24); (831195060, 13945139, -24); (831082400, 13943249, -24);
(830970300, 13941368, -24); (830860730, 13939530, -24); (830752550, 13937715, -24); (830649800, 13935991, -24); (830548760, 13934296, -24); (830450000, 13932639, -24); (830353740, 13931024, -24);
(830261770, 13929481, -24); (830171170, 13927961, -24); (830084560, 13926508, -24); (830001060, 13925107, -24); (829921200, 13923767, -24); (829844000, 13922472, -24); (829770900, 13921246, -24);
(829701000, 13920073, -24); (829636040, 13918983, -24); (829573800, 13917939, -24); (829515900, 13916967, -24); (829459670, 13916024, -24); (829408300, 13915162, -24); (829361400, 13914375, -24);
(829318900, 13913662, -24); (829280000, 13913010, -24); (829243500, 13912397, -24); (829212800, 13911882, -24); (829187000, 13911449, -24); (829163970, 13911063, -24); (829145700, 13910757, -24);
(829131300, 13910515, -24); (829119500, 13910317, -24); (829114140, 13910227, -24); (829113000, 13910208, -24); (829113600, 13910218, -24); (829121200, 13910345, -24); (829131700, 13910522, -24);
(829145970, 13910761, -24); (829163400, 13911053, -24); (829186740, 13911445, -24); (829213600, 13911896, -24); (829244550, 13912415, -24); (829279700, 13913005, -24); (829318500, 13913656, -24);
(829361440, 13914376, -24); (829408470, 13915165, -24); (829458650, 13916007, -24); (829511700, 13916897, -24); (829571300, 13917897, -24); (829633650, 13918943, -24); (829698000, 13920023, -24);
(829767400, 13921187, -24); (829840660, 13922416, -24); (829914800, 13923660, -24); (829995000, 13925005, -24); (830076930, 13926380, -24); (830163200, 13927827, -24); (830251930, 13929316, -24);
(830343700, 13930856, -24); (830438260, 13932442, -24); (830534900, 13934063, -24); (830635550, 13935752, -24); (830738250, 13937475, -24); (830844400, 13939256, -24); (830950800, 13941041, -24);
(831060900, 13942888, -24); (831174250, 13944790, -24); (831287260, 13946686, -24); (831403850, 13948642, -24); (831521600, 13950617, -24); (831642570, 13952647, -24); (831762250, 13954655, -24);
(831887250, 13956752, -24); (832012000, 13958845, -24); (832135000, 13960909, -24); (832264200, 13963076, -24); (832391740, 13965216, -24); (832518640, 13967345, -24); (832648340, 13969521, -24);
(832778160, 13971699, -24); (832907740, 13973873, -24); (833038400, 13976065, -24); (833168600, 13978250, -24); (833299900, 13980452, -24); (833430770, 13982648, -24); (833561900, 13984848, -24);
(833693270, 13987052, -24); (833823100, 13989230, -24); (833952900, 13991408, -24); (834081770, 13993570, -24); (834209740, 13995717, -24); (834336800, 13997849, -24); (834463300, 13999971, -24)].

(** src/oscillator/lookup_tables/bl_rect.rs:4062-4264 *)
Definition bl_rect_20 : list (Z * Z * Z) := [
(834586860, 14002044, -24); (834711600, 14004137, -24); (834833600, 14006184, -24); (834953370, 14008193, -24); (835072600, 14010193, -24); (835190240, 14012167, -24); (835305600, 14014102, -24);
(835417800, 14015985, -24); (835530460, 14017875, -24); (835638760, 14019692, -24); (835745930, 14021490, -24); (835850000, 14023236, -24); (835951570, 14024940, -24); (836050000, 14026591, -24);
(836146350, 14028208, -24); (836239760, 14029775, -24); (836330400, 14031296, -24); (836418000, 14032765, -24); (836503450, 14034199, -24); (836583800, 14035547, -24); (836662000, 14036859, -24);
(836736200, 14038104, -24); (836808700, 14039320, -24); (836878200, 14040486, -24); (836941240, 14041544, -24); (837002100, 14042565, -24); (837059800, 14043533, -24); (837111650, 14044403, -24);
(837161540, 14045240, -24); (837207700, 14046014, -24); (837249500, 14046716, -24); (837287800, 14047358, -24); (837322300, 14047937, -24); (837352800, 14048449, -24); (837379000, 14048888, -24);
(837401330, 14049263, -24); (837419750, 14049572, -24); (837433340, 14049800, -24); (837443700, 14049974, -24); (837450740, 14050092, -24); (837452400, 14050120, -24); (837450270, 14050084, -24);
(837443000, 14049962, -24); (837432560, 14049787, -24); (837418740, 14049555, -24); (837402200, 14049278, -24); (837378740, 14048884, -24); (837351800, 14048432, -24); (837323700, 14047961, -24);
(837287250, 14047349, -24); (837251370, 14046747, -24); (837209000, 14046036, -24); (837162700, 14045259, -24); (837113800, 14044439, -24); (837061300, 14043558, -24); (837004500, 14042605, -24);
(836943800, 14041587, -24); (836880450, 14040524, -24); (836811800, 14039372, -24); (836741500, 14038193, -24); (836667700, 14036955, -24); (836589930, 14035650, -24); (836509350, 14034298, -24);
(836426440, 14032907, -24); (836340100, 14031459, -24); (836249400, 14029937, -24); (836158000, 14028403, -24); (836063400, 14026816, -24); (835964200, 14025152, -24); (835864660, 14023482, -24);
(835761960, 14021759, -24); (835655500, 14019973, -24); (835549200, 14018189, -24); (835440600, 14016367, -24); (835329230, 14014499, -24); (835215600, 14012593, -24); (835100530, 14010662, -24);
(834983650, 14008701, -24); (834864740, 14006706, -24); (834743500, 14004672, -24); (834623000, 14002650, -24); (834500800, 14000600, -24); (834379200, 13998560, -24); (834252240, 13996430, -24);
(834127960, 13994345, -24); (834001840, 13992229, -24); (833874170, 13990087, -24); (833747450, 13987961, -24); (833619500, 13985814, -24); (833493350, 13983698, -24); (833364700, 13981540, -24);
(833237200, 13979400, -24); (833108700, 13977245, -24); (832980930, 13975101, -24); (832855600, 13972998, -24); (832729040, 13970875, -24); (832603200, 13968764, -24); (832478500, 13966672, -24);
(832353500, 13964574, -24); (832231160, 13962522, -24); (832107000, 13960439, -24); (831988200, 13958446, -24); (831869000, 13956446, -24); (831750900, 13954465, -24); (831635060, 13952521, -24);
(831521500, 13950616, -24); (831407900, 13948710, -24); (831296150, 13946835, -24); (831189630, 13945048, -24); (831080560, 13943218, -24); (830977400, 13941487, -24); (830877700, 13939815, -24);
(830777940, 13938141, -24); (830680000, 13936498, -24); (830586700, 13934932, -24); (830495060, 13933395, -24); (830406600, 13931911, -24); (830321900, 13930490, -24); (830239500, 13929107, -24);
(830160140, 13927776, -24); (830083800, 13926495, -24); (830010100, 13925259, -24); (829939840, 13924080, -24); (829874750, 13922988, -24); (829811000, 13921918, -24); (829752200, 13920932, -24);
(829696400, 13919996, -24); (829644700, 13919128, -24); (829594850, 13918292, -24); (829552230, 13917577, -24); (829509700, 13916863, -24); (829472800, 13916244, -24); (829439600, 13915687, -24);
(829410100, 13915192, -24); (829383500, 13914746, -24); (829361800, 13914382, -24); (829344330, 13914089, -24); (829329600, 13913842, -24); (829320200, 13913684, -24); (829315540, 13913606, -24);
(829312900, 13913562, -24); (829314700, 13913592, -24); (829320850, 13913695, -24); (829329400, 13913838, -24); (829344400, 13914090, -24); (829361800, 13914382, -24); (829383300, 13914743, -24);
(829408650, 13915168, -24); (829438200, 13915664, -24); (829471470, 13916222, -24); (829509400, 13916858, -24); (829549970, 13917539, -24); (829595270, 13918299, -24); (829643550, 13919109, -24);
(829693440, 13919946, -24); (829750060, 13920896, -24); (829808500, 13921876, -24); (829871100, 13922927, -24); (829937200, 13924036, -24); (830006960, 13925206, -24); (830077770, 13926394, -24);
(830155250, 13927694, -24); (830232560, 13928991, -24); (830315100, 13930376, -24); (830398700, 13931778, -24); (830485050, 13933227, -24); (830576200, 13934756, -24); (830670540, 13936339, -24);
(830764230, 13937911, -24); (830862500, 13939560, -24); (830962700, 13941241, -24); (831064640, 13942951, -24); (831169500, 13944710, -24); (831276100, 13946499, -24); (831385500, 13948334, -24);
(831497130, 13950207, -24); (831609200, 13952087, -24); (831722560, 13953989, -24); (831838200, 13955929, -24); (831955430, 13957896, -24); (832074100, 13959887, -24); (832193500, 13961890, -24);
(832314130, 13963914, -24); (832436300, 13965964, -24); (832557740, 13968001, -24); (832681800, 13970082, -24); (832805630, 13972160, -24); (832929300, 13974235, -24); (833054100, 13976329, -24);
(833179200, 13978427, -24); (833303630, 13980515, -24); (833427850, 13982599, -24); (833553000, 13984699, -24); (833677500, 13986787, -24); (833800500, 13988851, -24); (833925070, 13990941, -24);
(834047400, 13992993, -24); (834168900, 13995032, -24); (834291340, 13997086, -24); (834410550, 13999086, -24); (834530530, 14001099, -24); (834647360, 14003059, -24); (834764600, 14005026, -24)].

(** src/oscillator/lookup_tables/bl_rect.rs:4265-4467 *)
Definition bl_rect_21 : list (Z * Z * Z) := [
(834878860, 14006943, -24); (834993060, 14008859, -24); (835104600, 14010730, -24); (835215700, 14012594, -24); (835322400, 14014384, -24); (835427500, 14016148, -24); (835532300, 14017906, -24);
(835634200, 14019615, -24); (835733900, 14021288, -24); (835830150, 14022903, -24); (835923850, 14024475, -24); (836015800, 14026018, -24); (836105100, 14027516, -24); (836191400, 14028964, -24);
(836275300, 14030371, -24); (836355870, 14031723, -24); (836433050, 14033018, -24); (836507900, 14034274, -24); (836577900, 14035448, -24); (836647400, 14036614, -24); (836711760, 14037694, -24);
(836772900, 14038720, -24); (836831030, 14039695, -24); (836886100, 14040619, -24); (836936830, 14041470, -24); (836984750, 14042274, -24); (837027800, 14042996, -24); (837068560, 14043680, -24);
(837105000, 14044291, -24); (837136900, 14044827, -24); (837163500, 14045273, -24); (837190800, 14045731, -24); (837211500, 14046078, -24); (837229700, 14046384, -24); (837242400, 14046597, -24);
(837252440, 14046765, -24); (837259530, 14046884, -24); (837260540, 14046901, -24); (837257700, 14046853, -24); (837252700, 14046769, -24); (837241500, 14046581, -24); (837229100, 14046373, -24);
(837212200, 14046090, -24); (837190330, 14045723, -24); (837166200, 14045318, -24); (837136500, 14044820, -24); (837104860, 14044289, -24); (837068500, 14043679, -24); (837028260, 14043004, -24);
(836984460, 14042269, -24); (836937000, 14041473, -24); (836887800, 14040647, -24); (836834100, 14039746, -24); (836775360, 14038761, -24); (836715000, 14037748, -24); (836650550, 14036667, -24);
(836583200, 14035537, -24); (836512200, 14034346, -24); (836438800, 14033114, -24); (836363300, 14031848, -24); (836281600, 14030477, -24); (836199050, 14029092, -24); (836113450, 14027656, -24);
(836027440, 14026213, -24); (835935600, 14024672, -24); (835841830, 14023099, -24); (835747500, 14021516, -24); (835651160, 14019900, -24); (835549000, 14018186, -24); (835447500, 14016483, -24);
(835341160, 14014699, -24); (835235200, 14012921, -24); (835127950, 14011122, -24); (835017500, 14009269, -24); (834905500, 14007390, -24); (834792440, 14005493, -24); (834678200, 14003576, -24);
(834562540, 14001636, -24); (834446200, 13999684, -24); (834328530, 13997710, -24); (834210200, 13995725, -24); (834090230, 13993712, -24); (833969060, 13991679, -24); (833847800, 13989645, -24);
(833727900, 13987633, -24); (833605470, 13985579, -24); (833484100, 13983543, -24); (833361270, 13981482, -24); (833240300, 13979452, -24); (833118500, 13977409, -24); (832995500, 13975345, -24);
(832875000, 13973324, -24); (832753960, 13971293, -24); (832634150, 13969283, -24); (832515660, 13967295, -24); (832396270, 13965292, -24); (832279260, 13963329, -24); (832163400, 13961385, -24);
(832047940, 13959448, -24); (831934600, 13957546, -24); (831822400, 13955664, -24); (831711350, 13953801, -24); (831602040, 13951967, -24); (831495300, 13950176, -24); (831389900, 13948408, -24);
(831285900, 13946663, -24); (831184200, 13944957, -24); (831086160, 13943312, -24); (830986600, 13941642, -24); (830892800, 13940068, -24); (830800400, 13938518, -24); (830710500, 13937009, -24);
(830624340, 13935564, -24); (830540700, 13934161, -24); (830458760, 13932786, -24); (830379500, 13931456, -24); (830303000, 13930173, -24); (830230200, 13928951, -24); (830162400, 13927814, -24);
(830095000, 13926683, -24); (830032170, 13925629, -24); (829971800, 13924616, -24); (829915400, 13923670, -24); (829862500, 13922782, -24); (829813100, 13921954, -24); (829764960, 13921146, -24);
(829722640, 13920436, -24); (829684560, 13919797, -24); (829648140, 13919186, -24); (829616960, 13918663, -24); (829587040, 13918161, -24); (829563100, 13917759, -24); (829543000, 13917422, -24);
(829525500, 13917128, -24); (829510200, 13916872, -24); (829504500, 13916776, -24); (829496860, 13916648, -24); (829494900, 13916615, -24); (829497200, 13916654, -24); (829502100, 13916736, -24);
(829512900, 13916917, -24); (829526600, 13917147, -24); (829543530, 13917431, -24); (829562840, 13917755, -24); (829588000, 13918177, -24); (829616800, 13918660, -24); (829647400, 13919174, -24);
(829682950, 13919770, -24); (829720800, 13920405, -24); (829764840, 13921144, -24); (829811500, 13921927, -24); (829860200, 13922744, -24); (829912000, 13923613, -24); (829968400, 13924559, -24);
(830029960, 13925592, -24); (830091360, 13926622, -24); (830158350, 13927746, -24); (830225940, 13928880, -24); (830298960, 13930105, -24); (830373940, 13931363, -24); (830450700, 13932651, -24);
(830531240, 13934002, -24); (830614750, 13935403, -24); (830700040, 13936834, -24); (830790940, 13938359, -24); (830882850, 13939901, -24); (830975000, 13941447, -24); (831070700, 13943053, -24);
(831167640, 13944679, -24); (831269600, 13946390, -24); (831370100, 13948076, -24); (831475000, 13949836, -24); (831580040, 13951598, -24); (831686900, 13953391, -24); (831797540, 13955247, -24);
(831908760, 13957113, -24); (832019100, 13958964, -24); (832131200, 13960845, -24); (832246800, 13962784, -24); (832361800, 13964714, -24); (832479200, 13966683, -24); (832594040, 13968610, -24);
(832713300, 13970611, -24); (832830000, 13972569, -24); (832949760, 13974578, -24); (833066200, 13976532, -24); (833185850, 13978539, -24); (833306130, 13980557, -24); (833424800, 13982548, -24);
(833543540, 13984540, -24); (833662800, 13986541, -24); (833782300, 13988546, -24); (833898960, 13990503, -24); (834017630, 13992494, -24); (834134600, 13994456, -24); (834246900, 13996340, -24);
(834363900, 13998303, -24); (834477370, 14000207, -24); (834589100, 14002082, -24); (834702730, 14003988, -24); (834811700, 14005816, -24); (834919150, 14007619, -24); (835026260, 14009416, -24)].

(** src/oscillator/lookup_tables/bl_rect.rs:4468-4670 *)
Definition bl_rect_22 : list (Z * Z * Z) := [
(835131900, 14011188, -24); (835235200, 14012921, -24); (835335700, 14014607, -24); (835433400, 14016247, -24); (835532550, 14017910, -24); (835627400, 14019501, -24); (835719170, 14021041, -24);
(835809230, 14022552, -24); (835896900, 14024023, -24); (835984400, 14025491, -24); (836064800, 14026840, -24); (836143850, 14028166, -24); (836221400, 14029467, -24); (836295200, 14030705, -24);
(836367500, 14031918, -24); (836433900, 14033032, -24); (836498900, 14034123, -24); (836560400, 14035155, -24); (836620450, 14036162, -24); (836675700, 14037089, -24); (836728630, 14037977, -24);
(836777300, 14038794, -24); (836822330, 14039549, -24); (836863800, 14040245, -24); (836900800, 14040865, -24); (836937000, 14041473, -24); (836968200, 14041996, -24); (836995400, 14042453, -24);
(837019400, 14042855, -24); (837040250, 14043205, -24); (837058250, 14043507, -24); (837069000, 14043687, -24); (837078600, 14043848, -24); (837083940, 14043938, -24); (837086000, 14043973, -24);
(837084800, 14043952, -24); (837077560, 14043831, -24); (837070050, 14043705, -24); (837056000, 14043469, -24); (837039400, 14043191, -24); (837019740, 14042861, -24); (836996440, 14042470, -24);
(836967600, 14041986, -24); (836936650, 14041467, -24); (836901900, 14040884, -24); (836864900, 14040263, -24); (836822300, 14039548, -24); (836778000, 14038805, -24); (836728400, 14037973, -24);
(836677970, 14037127, -24); (836624200, 14036225, -24); (836563700, 14035210, -24); (836502000, 14034175, -24); (836438360, 14033107, -24); (836370940, 14031976, -24); (836300250, 14030790, -24);
(836227400, 14029568, -24); (836151200, 14028289, -24); (836071670, 14026955, -24); (835990900, 14025600, -24); (835906740, 14024188, -24); (835820800, 14022746, -24); (835730430, 14021230, -24);
(835639700, 14019708, -24); (835545540, 14018128, -24); (835449000, 14016508, -24); (835352200, 14014884, -24); (835251330, 14013192, -24); (835149600, 14011485, -24); (835047500, 14009772, -24);
(834941450, 14007993, -24); (834835470, 14006215, -24); (834726500, 14004387, -24); (834618570, 14002576, -24); (834507900, 14000719, -24); (834395300, 13998830, -24); (834282160, 13996932, -24);
(834170300, 13995055, -24); (834054700, 13993116, -24); (833940100, 13991193, -24); (833825050, 13989263, -24); (833709300, 13987321, -24); (833592800, 13985366, -24); (833476960, 13983423, -24);
(833359800, 13981457, -24); (833241200, 13979468, -24); (833126370, 13977541, -24); (833009840, 13975586, -24); (832893550, 13973635, -24); (832780060, 13971731, -24); (832663660, 13969778, -24);
(832551000, 13967888, -24); (832437000, 13965975, -24); (832325000, 13964096, -24); (832212900, 13962216, -24); (832104150, 13960391, -24); (831993040, 13958527, -24); (831887300, 13956753, -24);
(831781150, 13954972, -24); (831675800, 13953205, -24); (831574600, 13951507, -24); (831472640, 13949796, -24); (831373930, 13948140, -24); (831277500, 13946522, -24); (831181800, 13944917, -24);
(831088500, 13943351, -24); (830998400, 13941840, -24); (830910800, 13940370, -24); (830824200, 13938917, -24); (830741170, 13937524, -24); (830661060, 13936180, -24); (830582200, 13934857, -24);
(830507800, 13933609, -24); (830435200, 13932391, -24); (830364940, 13931212, -24); (830299200, 13930109, -24); (830235100, 13929034, -24); (830173700, 13928003, -24); (830117500, 13927061, -24);
(830064360, 13926169, -24); (830012000, 13925291, -24); (829964640, 13924496, -24); (829921500, 13923772, -24); (829879500, 13923068, -24); (829841600, 13922432, -24); (829808800, 13921881, -24);
(829778500, 13921373, -24); (829751700, 13920923, -24); (829726460, 13920500, -24); (829705500, 13920148, -24); (829691200, 13919908, -24); (829678400, 13919694, -24); (829669700, 13919548, -24);
(829663040, 13919436, -24); (829661250, 13919406, -24); (829663100, 13919437, -24); (829669600, 13919546, -24); (829677100, 13919672, -24); (829692240, 13919926, -24); (829708040, 13920191, -24);
(829727350, 13920515, -24); (829750840, 13920909, -24); (829777360, 13921354, -24); (829807600, 13921861, -24); (829842000, 13922438, -24); (829879500, 13923068, -24); (829919760, 13923743, -24);
(829963450, 13924476, -24); (830010650, 13925268, -24); (830061850, 13926127, -24); (830115500, 13927027, -24); (830172900, 13927990, -24); (830232100, 13928983, -24); (830295440, 13930046, -24);
(830363100, 13931181, -24); (830430570, 13932313, -24); (830502330, 13933517, -24); (830576100, 13934755, -24); (830654300, 13936067, -24); (830733660, 13937398, -24); (830816500, 13938788, -24);
(830899900, 13940187, -24); (830988300, 13941670, -24); (831076500, 13943150, -24); (831167900, 13944683, -24); (831263500, 13946287, -24); (831359570, 13947899, -24); (831456100, 13949519, -24);
(831555370, 13951184, -24); (831657650, 13952900, -24); (831759200, 13954604, -24); (831864660, 13956373, -24); (831970400, 13958147, -24); (832076130, 13959921, -24); (832184260, 13961735, -24);
(832293870, 13963574, -24); (832404430, 13965429, -24); (832516500, 13967309, -24); (832627400, 13969170, -24); (832739900, 13971057, -24); (832851900, 13972936, -24); (832966600, 13974861, -24);
(833079100, 13976748, -24); (833194430, 13978683, -24); (833310250, 13980626, -24); (833422360, 13982507, -24); (833536000, 13984414, -24); (833649900, 13986324, -24); (833763500, 13988230, -24);
(833876800, 13990131, -24); (833988250, 13992001, -24); (834100540, 13993885, -24); (834211200, 13995741, -24); (834320500, 13997575, -24); (834429700, 13999407, -24); (834537570, 14001217, -24);
(834643660, 14002997, -24); (834749200, 14004768, -24); (834852900, 14006507, -24); (834953550, 14008196, -24); (835053860, 14009879, -24); (835153800, 14011556, -24); (835250740, 14013182, -24)].

(** src/oscillator/lookup_tables/bl_rect.rs:4671-4873 *)
Definition bl_rect_23 : list (Z * Z * Z) := [
(835346040, 14014781, -24); (835439100, 14016342, -24); (835530800, 14017881, -24); (835618300, 14019349, -24); (835704600, 14020797, -24); (835788970, 14022212, -24); (835870600, 14023582, -24);
(835947500, 14024872, -24); (836025000, 14026172, -24); (836098430, 14027404, -24); (836169660, 14028599, -24); (836236660, 14029723, -24); (836302340, 14030825, -24); (836364300, 14031865, -24);
(836423900, 14032864, -24); (836479250, 14033793, -24); (836533250, 14034699, -24); (836584300, 14035556, -24); (836629500, 14036314, -24); (836673740, 14037056, -24); (836713300, 14037720, -24);
(836750100, 14038337, -24); (836783100, 14038891, -24); (836813150, 14039395, -24); (836839700, 14039840, -24); (836863700, 14040243, -24); (836880800, 14040530, -24); (836898500, 14040827, -24);
(836911100, 14041038, -24); (836919070, 14041172, -24); (836923900, 14041253, -24); (836926940, 14041304, -24); (836924800, 14041268, -24); (836919500, 14041179, -24); (836910300, 14041025, -24);
(836899040, 14040836, -24); (836881640, 14040544, -24); (836862860, 14040229, -24); (836839850, 14039843, -24); (836813800, 14039406, -24); (836783600, 14038899, -24); (836750860, 14038350, -24);
(836713700, 14037726, -24); (836675000, 14037077, -24); (836632130, 14036358, -24); (836584900, 14035566, -24); (836534600, 14034722, -24); (836483000, 14033856, -24); (836427450, 14032924, -24);
(836367100, 14031911, -24); (836306630, 14030897, -24); (836240530, 14029788, -24); (836173650, 14028666, -24); (836104400, 14027504, -24); (836031730, 14026285, -24); (835955140, 14025000, -24);
(835877100, 14023691, -24); (835796830, 14022344, -24); (835714300, 14020959, -24); (835627000, 14019495, -24); (835540060, 14018036, -24); (835450350, 14016531, -24); (835359450, 14015006, -24);
(835265760, 14013434, -24); (835168960, 14011810, -24); (835073950, 14010216, -24); (834973400, 14008529, -24); (834872500, 14006836, -24); (834769600, 14005110, -24); (834665950, 14003371, -24);
(834563600, 14001654, -24); (834457200, 13999869, -24); (834349930, 13998069, -24); (834240900, 13996240, -24); (834133400, 13994436, -24); (834023650, 13992595, -24); (833913100, 13990740, -24);
(833802340, 13988882, -24); (833691400, 13987021, -24); (833580300, 13985157, -24); (833469150, 13983292, -24); (833356860, 13981408, -24); (833246100, 13979550, -24); (833134500, 13977677, -24);
(833021300, 13975778, -24); (832910900, 13973926, -24); (832800400, 13972072, -24); (832690900, 13970235, -24); (832582100, 13968410, -24); (832474230, 13966600, -24); (832366100, 13964786, -24);
(832259650, 13963000, -24); (832154870, 13961242, -24); (832050400, 13959489, -24); (831948300, 13957776, -24); (831845160, 13956046, -24); (831745560, 13954375, -24); (831647500, 13952730, -24);
(831551400, 13951117, -24); (831455400, 13949507, -24); (831362660, 13947951, -24); (831272360, 13946436, -24); (831182900, 13944935, -24); (831094800, 13943457, -24); (831011800, 13942064, -24);
(830929460, 13940683, -24); (830848500, 13939325, -24); (830771860, 13938039, -24); (830698400, 13936806, -24); (830626100, 13935593, -24); (830555000, 13934401, -24); (830489400, 13933300, -24);
(830425440, 13932227, -24); (830363400, 13931186, -24); (830306050, 13930224, -24); (830251800, 13929314, -24); (830200100, 13928446, -24); (830150370, 13927612, -24); (830105250, 13926855, -24);
(830062450, 13926137, -24); (830023400, 13925482, -24); (829986330, 13924860, -24); (829955040, 13924335, -24); (829925800, 13923844, -24); (829899800, 13923408, -24); (829878800, 13923056, -24);
(829858400, 13922714, -24); (829844200, 13922475, -24); (829830700, 13922249, -24); (829823200, 13922123, -24); (829817600, 13922029, -24); (829814900, 13921984, -24); (829815570, 13921995, -24);
(829822100, 13922105, -24); (829831000, 13922254, -24); (829842030, 13922439, -24); (829859260, 13922728, -24); (829878100, 13923044, -24); (829900600, 13923422, -24); (829925300, 13923836, -24);
(829954400, 13924324, -24); (829987050, 13924872, -24); (830023900, 13925490, -24); (830060800, 13926109, -24); (830105070, 13926852, -24); (830149200, 13927592, -24); (830197630, 13928405, -24);
(830249500, 13929275, -24); (830302800, 13930169, -24); (830361600, 13931156, -24); (830423200, 13932189, -24); (830484900, 13933225, -24); (830553230, 13934371, -24); (830621060, 13935509, -24);
(830691500, 13936691, -24); (830764600, 13937917, -24); (830841660, 13939210, -24); (830921300, 13940546, -24); (831002060, 13941901, -24); (831086460, 13943317, -24); (831172500, 13944761, -24);
(831260400, 13946235, -24); (831349300, 13947727, -24); (831441760, 13949278, -24); (831535040, 13950843, -24); (831629300, 13952424, -24); (831726900, 13954062, -24); (831824900, 13955706, -24);
(831925400, 13957392, -24); (832028700, 13959125, -24); (832128500, 13960800, -24); (832232200, 13962539, -24); (832338870, 13964329, -24); (832443800, 13966089, -24); (832551360, 13967894, -24);
(832656900, 13969665, -24); (832765100, 13971480, -24); (832873640, 13973301, -24); (832982360, 13975125, -24); (833091740, 13976960, -24); (833202060, 13978811, -24); (833310070, 13980623, -24);
(833419800, 13982464, -24); (833529530, 13984305, -24); (833638700, 13986137, -24); (833746250, 13987941, -24); (833855030, 13989766, -24); (833962500, 13991569, -24); (834069970, 13993372, -24);
(834177100, 13995169, -24); (834280600, 13996906, -24); (834384860, 13998655, -24); (834488450, 14000393, -24); (834590400, 14002103, -24); (834692300, 14003813, -24); (834790100, 14005454, -24);
(834888460, 14007104, -24); (834986600, 14008751, -24); (835080150, 14010320, -24); (835173370, 14011884, -24); (835264300, 14013410, -24); (835353800, 14014911, -24); (835440160, 14016360, -24)].

(** src/oscillator/lookup_tables/bl_rect.rs:4874-5076 *)
Definition bl_rect_24 : list (Z * Z * Z) := [
(835525000, 14017783, -24); (835607350, 14019165, -24); (835688950, 14020534, -24); (835766730, 14021839, -24); (835842850, 14023116, -24); (835915700, 14024338, -24); (835987030, 14025535, -24);
(836053430, 14026649, -24); (836119830, 14027763, -24); (836182800, 14028819, -24); (836241100, 14029798, -24); (836298760, 14030765, -24); (836352770, 14031671, -24); (836401640, 14032491, -24);
(836450500, 14033311, -24); (836495000, 14034057, -24); (836536770, 14034758, -24); (836575270, 14035404, -24); (836609400, 14035977, -24); (836642860, 14036538, -24); (836670760, 14037006, -24);
(836696400, 14037436, -24); (836719500, 14037824, -24); (836736140, 14038103, -24); (836752300, 14038374, -24); (836764750, 14038583, -24); (836772100, 14038706, -24); (836777700, 14038800, -24);
(836779000, 14038822, -24); (836777700, 14038800, -24); (836773900, 14038736, -24); (836762850, 14038551, -24); (836751800, 14038366, -24); (836738170, 14038137, -24); (836719040, 14037816, -24);
(836698000, 14037463, -24); (836671200, 14037013, -24); (836642400, 14036530, -24); (836610900, 14036002, -24); (836576640, 14035427, -24); (836539400, 14034802, -24); (836496500, 14034082, -24);
(836451900, 14033334, -24); (836404500, 14032539, -24); (836354000, 14031692, -24); (836300130, 14030788, -24); (836244400, 14029853, -24); (836184260, 14028844, -24); (836122930, 14027815, -24);
(836058560, 14026735, -24); (835990500, 14025593, -24); (835921170, 14024430, -24); (835849600, 14023229, -24); (835773770, 14021957, -24); (835696940, 14020668, -24); (835615750, 14019306, -24);
(835533800, 14017931, -24); (835450770, 14016538, -24); (835365240, 14015103, -24); (835276300, 14013611, -24); (835185800, 14012093, -24); (835095400, 14010576, -24); (835000700, 14008987, -24);
(834905860, 14007396, -24); (834809900, 14005786, -24); (834711250, 14004131, -24); (834612370, 14002472, -24); (834513400, 14000812, -24); (834410400, 13999084, -24); (834308200, 13997369, -24);
(834204730, 13995633, -24); (834101100, 13993894, -24); (833994900, 13992113, -24); (833888700, 13990331, -24); (833783200, 13988561, -24); (833676340, 13986768, -24); (833568300, 13984955, -24);
(833462400, 13983179, -24); (833355000, 13981377, -24); (833250160, 13979618, -24); (833142600, 13977813, -24); (833035800, 13976022, -24); (832927470, 13974204, -24); (832821700, 13972430, -24);
(832715300, 13970644, -24); (832611560, 13968904, -24); (832508740, 13967179, -24); (832405030, 13965439, -24); (832303050, 13963728, -24); (832200400, 13962006, -24); (832101300, 13960343, -24);
(832002200, 13958681, -24); (831904000, 13957033, -24); (831808270, 13955427, -24); (831715000, 13953862, -24); (831622060, 13952303, -24); (831529500, 13950750, -24); (831442600, 13949292, -24);
(831353800, 13947802, -24); (831267360, 13946352, -24); (831185400, 13944977, -24); (831103440, 13943602, -24); (831025600, 13942296, -24); (830948500, 13941002, -24); (830873700, 13939748, -24);
(830803200, 13938565, -24); (830734250, 13937408, -24); (830665900, 13936261, -24); (830602800, 13935203, -24); (830541600, 13934176, -24); (830483260, 13933197, -24); (830426340, 13932242, -24);
(830374240, 13931368, -24); (830325300, 13930547, -24); (830277800, 13929750, -24); (830233630, 13929009, -24); (830192900, 13928326, -24); (830156400, 13927713, -24); (830120860, 13927117, -24);
(830090340, 13926605, -24); (830063300, 13926151, -24); (830037900, 13925725, -24); (830014500, 13925333, -24); (829998400, 13925062, -24); (829982500, 13924796, -24); (829970400, 13924593, -24);
(829962800, 13924465, -24); (829957370, 13924374, -24); (829957070, 13924369, -24); (829956800, 13924365, -24); (829962800, 13924465, -24); (829971700, 13924614, -24); (829982400, 13924794, -24);
(829997300, 13925044, -24); (830014100, 13925326, -24); (830037830, 13925724, -24); (830062100, 13926131, -24); (830091900, 13926631, -24); (830120400, 13927109, -24); (830156270, 13927711, -24);
(830192150, 13928313, -24); (830233750, 13929011, -24); (830277300, 13929742, -24); (830323300, 13930513, -24); (830372800, 13931344, -24); (830424300, 13932208, -24); (830480750, 13933155, -24);
(830539350, 13934138, -24); (830599840, 13935153, -24); (830662550, 13936205, -24); (830730400, 13937343, -24); (830798270, 13938482, -24); (830867350, 13939641, -24); (830940660, 13940871, -24);
(831018270, 13942173, -24); (831096050, 13943478, -24); (831175300, 13944808, -24); (831258600, 13946205, -24); (831342900, 13947619, -24); (831428470, 13949055, -24); (831518600, 13950567, -24);
(831606860, 13952048, -24); (831697940, 13953576, -24); (831791940, 13955153, -24); (831887600, 13956758, -24); (831981700, 13958337, -24); (832080660, 13959997, -24); (832178700, 13961642, -24);
(832278000, 13963308, -24); (832378030, 13964986, -24); (832480400, 13966703, -24); (832581500, 13968400, -24); (832687100, 13970171, -24); (832788770, 13971877, -24); (832893200, 13973629, -24);
(832997860, 13975385, -24); (833103000, 13977149, -24); (833205940, 13978876, -24); (833312800, 13980669, -24); (833418370, 13982440, -24); (833521900, 13984177, -24); (833627100, 13985942, -24);
(833731700, 13987697, -24); (833834770, 13989426, -24); (833938300, 13991163, -24); (834039900, 13992868, -24); (834143160, 13994600, -24); (834245150, 13996311, -24); (834344400, 13997976, -24);
(834443570, 13999640, -24); (834541700, 14001286, -24); (834638830, 14002916, -24); (834734100, 14004514, -24); (834827840, 14006087, -24); (834919750, 14007629, -24); (835011660, 14009171, -24);
(835101800, 14010683, -24); (835188900, 14012145, -24); (835273700, 14013567, -24); (835357370, 14014971, -24); (835438250, 14016328, -24); (835519730, 14017695, -24); (835596440, 14018982, -24)].

(** src/oscillator/lookup_tables/bl_rect.rs:1-5077 *)
Definition bl_rect_literals : list (Z * Z * Z) :=
  bl_rect_0 ++ bl_rect_1 ++ bl_rect_2 ++ bl_rect_3 ++ bl_rect_4 ++ bl_rect_5 ++ bl_rect_6 ++ bl_rect_7 ++ bl_rect_8 ++ bl_rect_9 ++ bl_rect_10 ++ bl_rect_11 ++ bl_rect_12 ++ bl_rect_13 ++ bl_rect_14 ++ bl_rect_15 ++ bl_rect_16 ++ bl_rect_17 ++ bl_rect_18 ++ bl_rect_19 ++ bl_rect_20 ++ bl_rect_21 ++ bl_rect_22 ++ bl_rect_23 ++ bl_rect_24.

(** The f32 an entry stands for. *)
Definition literal_f32 (l : Z * Z * Z) : f32 := let '(_, m, e) := l in lit m e.

(** src/oscillator/lookup_tables/bl_rect.rs:1: the contents of [BANDLIMITED_RECT]. *)
Definition bl_rect_table : list f32 := map literal_f32 bl_rect_literals.

(** m * 2^e is the f32 nearest to d / 10^9: m has 24 bits and the distance is less than half a
    unit in the last place (zero is zero). *)
Definition literal_ok (l : Z * Z * Z) : bool :=
  let '(d, m, e) := l in
  ((d =? 0) && (m =? 0) && (e =? 0)) ||
  ((2 ^ 23 <=? m) && (m <? 2 ^ 24) && (-40 <=? e) && (e <=? -24) && (2 * Z.abs (m * 10 ^ 9 - d * 2 ^ (- e)) <? 10 ^ 9)).
