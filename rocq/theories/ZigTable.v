(* The tables of exponential_distribution.hpp and normal_distribution.hpp. *)
From Verif Require Import Base FloatModel BinModel.
Open Scope Q_scope.

(* exponential_distribution.hpp:42-109, the table of type double *)
Definition ex_x : list Q := map dlit [
   86971174701310497140 # 10000000000000000000; 76971174701310497140 # 10000000000000000000; 69410336293772123602 # 10000000000000000000;
   64783784938325698538 # 10000000000000000000; 61441646657724730491 # 10000000000000000000; 58821443157953997963 # 10000000000000000000;
   56664101674540337371 # 10000000000000000000; 54828906275260628694 # 10000000000000000000; 53230905057543986131 # 10000000000000000000;
   51814872813015010392 # 10000000000000000000; 50542884899813047117 # 10000000000000000000; 49387770859012514838 # 10000000000000000000;
   48329397410251125881 # 10000000000000000000; 47352429966017412526 # 10000000000000000000; 46444918854200854873 # 10000000000000000000;
   45597370617073515513 # 10000000000000000000; 44802117465284221949 # 10000000000000000000; 44052876934735729805 # 10000000000000000000;
   43344436803172730116 # 10000000000000000000; 42672424802773661873 # 10000000000000000000; 42033137137351843802 # 10000000000000000000;
   41423408656640511251 # 10000000000000000000; 40840513104082974638 # 10000000000000000000; 40282085446479365106 # 10000000000000000000;
   39746060666737884793 # 10000000000000000000; 39230625001354895926 # 10000000000000000000; 38734176703995089983 # 10000000000000000000;
   38255294185223367372 # 10000000000000000000; 37792709924116678992 # 10000000000000000000; 37345288940397975350 # 10000000000000000000;
   36912010902374189454 # 10000000000000000000; 36491955157608538478 # 10000000000000000000; 36084288131289096339 # 10000000000000000000;
   35688252656483374051 # 10000000000000000000; 35303158891293438633 # 10000000000000000000; 34928376547740601814 # 10000000000000000000;
   34563328211327607625 # 10000000000000000000; 34207483572511205323 # 10000000000000000000; 33860354424603017887 # 10000000000000000000;
   33521490309001100106 # 10000000000000000000; 33190474709707487166 # 10000000000000000000; 32866921715990692095 # 10000000000000000000;
   32550473085704501813 # 10000000000000000000; 32240795652862645207 # 10000000000000000000; 31937579032122407483 # 10000000000000000000;
   31640533580259734580 # 10000000000000000000; 31349388580844407393 # 10000000000000000000; 31063890623398246660 # 10000000000000000000;
   30783802152540905188 # 10000000000000000000; 30508900166154554479 # 10000000000000000000; 30238975044556767713 # 10000000000000000000;
   29973829495161306949 # 10000000000000000000; 29713277599210896472 # 10000000000000000000; 29457143948950456386 # 10000000000000000000;
   29205262865127406647 # 10000000000000000000; 28957477686001416838 # 10000000000000000000; 28713640120155362592 # 10000000000000000000;
   28473609656351888266 # 10000000000000000000; 28237253024500354905 # 10000000000000000000; 28004443702507381944 # 10000000000000000000;
   27775061464397572041 # 10000000000000000000; 27548991965623453650 # 10000000000000000000; 27326126361947007411 # 10000000000000000000;
   27106360958679293686 # 10000000000000000000; 26889596887418041593 # 10000000000000000000; 26675739807732670816 # 10000000000000000000;
   26464699631518093905 # 10000000000000000000; 26256390267977886123 # 10000000000000000000; 26050729387408355373 # 10000000000000000000;
   25847638202141406911 # 10000000000000000000; 25647041263169053687 # 10000000000000000000; 25448866271118700928 # 10000000000000000000;
   25253043900378279427 # 10000000000000000000; 25059507635285939648 # 10000000000000000000; 24868193617402096807 # 10000000000000000000;
   24679040502973649846 # 10000000000000000000; 24491989329782498908 # 10000000000000000000; 24306983392644199088 # 10000000000000000000;
   24123968126888708336 # 10000000000000000000; 23942890999214583288 # 10000000000000000000; 23763701405361408194 # 10000000000000000000;
   23586350574093374601 # 10000000000000000000; 23410791477030346875 # 10000000000000000000; 23236978743901964559 # 10000000000000000000;
   23064868582835798692 # 10000000000000000000; 22894418705322694265 # 10000000000000000000; 22725588255531546952 # 10000000000000000000;
   22558337743672190441 # 10000000000000000000; 22392628983129087111 # 10000000000000000000; 22228425031110364013 # 10000000000000000000;
   22065690132576635755 # 10000000000000000000; 21904389667232199235 # 10000000000000000000; 21744490099377744673 # 10000000000000000000;
   21585958930438856781 # 10000000000000000000; 21428764653998416425 # 10000000000000000000; 21272876713173679737 # 10000000000000000000;
   21118265460190418108 # 10000000000000000000; 20964902118017147637 # 10000000000000000000; 20812758743932248696 # 10000000000000000000;
   20661808194905755036 # 10000000000000000000; 20512024094685848641 # 10000000000000000000; 20363380802487695916 # 10000000000000000000;
   20215853383189260770 # 10000000000000000000; 20069417578945183144 # 10000000000000000000; 19924049782135764992 # 10000000000000000000;
   19779727009573602295 # 10000000000000000000; 19636426877895480401 # 10000000000000000000; 19494127580071845659 # 10000000000000000000;
   19352807862970511135 # 10000000000000000000; 19212447005915276767 # 10000000000000000000; 19073024800183871196 # 10000000000000000000;
   18934521529393077332 # 10000000000000000000; 18796917950722108462 # 10000000000000000000; 18660195276928275962 # 10000000000000000000;
   18524335159111751661 # 10000000000000000000; 18389319670188793980 # 10000000000000000000; 18255131289035192212 # 10000000000000000000;
   18121752885263901413 # 10000000000000000000; 17989167704602903934 # 10000000000000000000; 17857359354841254047 # 10000000000000000000;
   17726311792313049959 # 10000000000000000000; 17596009308890742369 # 10000000000000000000; 17466436519460739352 # 10000000000000000000;
   17337578349855711926 # 10000000000000000000; 17209420025219350428 # 10000000000000000000; 17081947058780575683 # 10000000000000000000;
   16955145241015377061 # 10000000000000000000; 16829000629175537544 # 10000000000000000000; 16703499537164519163 # 10000000000000000000;
   16578628525741725325 # 10000000000000000000; 16454374393037234057 # 10000000000000000000; 16330724165359912048 # 10000000000000000000;
   16207665088282577216 # 10000000000000000000; 16085184617988580769 # 10000000000000000000; 15963270412864831349 # 10000000000000000000;
   15841910325326886695 # 10000000000000000000; 15721092393862294810 # 10000000000000000000; 15600804835278879161 # 10000000000000000000;
   15481036037145133070 # 10000000000000000000; 15361774550410318943 # 10000000000000000000; 15243009082192260050 # 10000000000000000000;
   15124728488721167573 # 10000000000000000000; 15006921768428164936 # 10000000000000000000; 14889578055167456003 # 10000000000000000000;
   14772686611561334579 # 10000000000000000000; 14656236822457450411 # 10000000000000000000; 14540218188487932264 # 10000000000000000000;
   14424620319720121876 # 10000000000000000000; 14309432929388794104 # 10000000000000000000; 14194645827699828254 # 10000000000000000000;
   14080248915695353509 # 10000000000000000000; 13966232179170417110 # 10000000000000000000; 13852585682631217189 # 10000000000000000000;
   13739299563284902176 # 10000000000000000000; 13626364025050864742 # 10000000000000000000; 13513769332583349176 # 10000000000000000000;
   13401505805295045843 # 10000000000000000000; 13289563811371163220 # 10000000000000000000; 13177933761763245480 # 10000000000000000000;
   13066606104151739482 # 10000000000000000000; 12955571316866007210 # 10000000000000000000; 12844819902750125450 # 10000000000000000000;
   12734342382962410994 # 10000000000000000000; 12624129290696153434 # 10000000000000000000; 12514171164808525098 # 10000000000000000000;
   12404458543344064544 # 10000000000000000000; 12294981956938491599 # 10000000000000000000; 12185731922087903071 # 10000000000000000000;
   12076698934267612830 # 10000000000000000000; 11967873460884031665 # 10000000000000000000; 11859245934042023557 # 10000000000000000000;
   11750806743109117687 # 10000000000000000000; 11642546227056790397 # 10000000000000000000; 11534454666557748056 # 10000000000000000000;
   11426522275816728928 # 10000000000000000000; 11318739194110786733 # 10000000000000000000; 11211095477013306083 # 10000000000000000000;
   11103581087274114281 # 10000000000000000000; 10996185885325976575 # 10000000000000000000; 10888899619385472598 # 10000000000000000000;
   10781711915113727024 # 10000000000000000000; 10674612264799681530 # 10000000000000000000; 10567590016025518414 # 10000000000000000000;
   10460634359770445503 # 10000000000000000000; 10353734317905289496 # 10000000000000000000; 10246878730026178052 # 10000000000000000000;
   10140056239570971074 # 10000000000000000000; 10033255279156973717 # 10000000000000000000; 99264640550727647009 # 100000000000000000000;
   98196705308506317914 # 100000000000000000000; 97128624098390397896 # 100000000000000000000; 96060271166866709917 # 100000000000000000000;
   94991517776407659940 # 100000000000000000000; 93922231995526297952 # 100000000000000000000; 92852278474721113999 # 100000000000000000000;
   91781518207004493915 # 100000000000000000000; 90709808271569100600 # 100000000000000000000; 89637001558989069006 # 100000000000000000000;
   88562946476175228052 # 100000000000000000000; 87487486629102585352 # 100000000000000000000; 86410460481100519511 # 100000000000000000000;
   85331700984237406386 # 100000000000000000000; 84251035181036928333 # 100000000000000000000; 83168283773427388393 # 100000000000000000000;
   82083260655441252290 # 100000000000000000000; 80995772405741906620 # 100000000000000000000; 79905617735548788109 # 100000000000000000000;
   78812586886949324977 # 100000000000000000000; 77716460975913043936 # 100000000000000000000; 76617011273543541328 # 100000000000000000000;
   75513998418198289808 # 100000000000000000000; 74407171550050873971 # 100000000000000000000; 73296267358436604916 # 100000000000000000000;
   72181009030875689912 # 100000000000000000000; 71061105090965570413 # 100000000000000000000; 69936248110323266174 # 100000000000000000000;
   68806113277374858613 # 100000000000000000000; 67670356802952337911 # 100000000000000000000; 66528614139267855405 # 100000000000000000000;
   65380497984766565353 # 100000000000000000000; 64225596042453703448 # 100000000000000000000; 63063468493349100113 # 100000000000000000000;
   61893645139487678178 # 100000000000000000000; 60715622162030085137 # 100000000000000000000; 59528858429150359384 # 100000000000000000000;
   58332771274877027785 # 100000000000000000000; 57126731653258903915 # 100000000000000000000; 55910058551154127652 # 100000000000000000000;
   54682012516331112550 # 100000000000000000000; 53441788123716615385 # 100000000000000000000; 52188505159213564105 # 100000000000000000000;
   50921198244365495319 # 100000000000000000000; 49638804551867159754 # 100000000000000000000; 48340149165346224782 # 100000000000000000000;
   47023927508216945338 # 100000000000000000000; 45688684093142071279 # 100000000000000000000; 44332786607355296305 # 100000000000000000000;
   42954394022541129589 # 100000000000000000000; 41551416960035700100 # 100000000000000000000; 40121467889627836229 # 100000000000000000000;
   38661797794112021568 # 100000000000000000000; 37169214532991786118 # 100000000000000000000; 35639976025839443721 # 100000000000000000000;
   34069648106484979674 # 100000000000000000000; 32452911701691008547 # 100000000000000000000; 30783295467493287307 # 100000000000000000000;
   29052795549123115167 # 100000000000000000000; 27251318547846547924 # 100000000000000000000; 25365836338591284433 # 100000000000000000000;
   23379048305967553619 # 100000000000000000000; 21267151063096745264 # 100000000000000000000; 18995868962243277774 # 100000000000000000000;
   16512762256418831796 # 100000000000000000000; 13730498094001380420 # 100000000000000000000; 10483850756582017915 # 100000000000000000000;
   63852163815003480173 # 1000000000000000000000; 0].
(* exponential_distribution.hpp:111-178, the table of type double *)
Definition ex_y : list Q := map dlit [
   0; 45413435384149675545 # 100000000000000000000000; 96726928232717452884 # 100000000000000000000000;
   15362997803015723824 # 10000000000000000000000; 21459677437189061793 # 10000000000000000000000; 27887987935740759640 # 10000000000000000000000;
   34602647778369039855 # 10000000000000000000000; 41572951208337952532 # 10000000000000000000000; 48776559835423925804 # 10000000000000000000000;
   56196422072054831710 # 10000000000000000000000; 63819059373191794422 # 10000000000000000000000; 71633531836349841425 # 10000000000000000000000;
   79630774380170392396 # 10000000000000000000000; 87803149858089752347 # 10000000000000000000000; 96144136425022094101 # 10000000000000000000000;
   10464810181029979488 # 1000000000000000000000; 11331013597834597488 # 1000000000000000000000; 12212592426255380661 # 1000000000000000000000;
   13109164931254991070 # 1000000000000000000000; 14020391403181937334 # 1000000000000000000000; 14945968011691148079 # 1000000000000000000000;
   15885621839973162490 # 1000000000000000000000; 16839106826039946359 # 1000000000000000000000; 17806200410911360563 # 1000000000000000000000;
   18786700744696029497 # 1000000000000000000000; 19780424338009741737 # 1000000000000000000000; 20787204072578117603 # 1000000000000000000000;
   21806887504283582125 # 1000000000000000000000; 22839335406385238829 # 1000000000000000000000; 23884420511558170348 # 1000000000000000000000;
   24942026419731782971 # 1000000000000000000000; 26012046645134218076 # 1000000000000000000000; 27094383780955798424 # 1000000000000000000000;
   28188948763978634421 # 1000000000000000000000; 29295660224637394015 # 1000000000000000000000; 30414443910466605492 # 1000000000000000000000;
   31545232172893605499 # 1000000000000000000000; 32687963508959533317 # 1000000000000000000000; 33842582150874329031 # 1000000000000000000000;
   35009037697397411067 # 1000000000000000000000; 36187284781931419754 # 1000000000000000000000; 37377282772959360128 # 1000000000000000000000;
   38578995503074859626 # 1000000000000000000000; 39792391023374122670 # 1000000000000000000000; 41017441380414820816 # 1000000000000000000000;
   42254122413316231413 # 1000000000000000000000; 43502413568888183301 # 1000000000000000000000; 44762297732943280694 # 1000000000000000000000;
   46033761076175166762 # 1000000000000000000000; 47316792913181548703 # 1000000000000000000000; 48611385573379494401 # 1000000000000000000000;
   49917534282706374944 # 1000000000000000000000; 51235237055126279830 # 1000000000000000000000; 52564494593071689595 # 1000000000000000000000;
   53905310196046085104 # 1000000000000000000000; 55257689676697038322 # 1000000000000000000000; 56621641283742874438 # 1000000000000000000000;
   57997175631200659098 # 1000000000000000000000; 59384305633420264487 # 1000000000000000000000; 60783046445479636051 # 1000000000000000000000;
   62193415408540996150 # 1000000000000000000000; 63615431999807331076 # 1000000000000000000000; 65049117786753755036 # 1000000000000000000000;
   66494496385339779043 # 1000000000000000000000; 67951593421936607770 # 1000000000000000000000; 69420436498728751675 # 1000000000000000000000;
   70901055162371828426 # 1000000000000000000000; 72393480875708743023 # 1000000000000000000000; 73897746992364746308 # 1000000000000000000000;
   75413888734058408453 # 1000000000000000000000; 76941943170480510100 # 1000000000000000000000; 78481949201606426042 # 1000000000000000000000;
   80033947542319910023 # 1000000000000000000000; 81597980709237420930 # 1000000000000000000000; 83174093009632380354 # 1000000000000000000000;
   84762330532368125386 # 1000000000000000000000; 86362741140756912277 # 1000000000000000000000; 87975374467270219300 # 1000000000000000000000;
   89600281910032864534 # 1000000000000000000000; 91237516631040162057 # 1000000000000000000000; 92887133556043546523 # 1000000000000000000000;
   94549189376055853718 # 1000000000000000000000; 96223742550432800103 # 1000000000000000000000; 97910853311492199618 # 1000000000000000000000;
   99610583670637128826 # 1000000000000000000000; 10132299742595363588 # 100000000000000000000; 10304816017125771553 # 100000000000000000000;
   10478613930657016928 # 100000000000000000000; 10653700405000166218 # 100000000000000000000; 10830082545103379867 # 100000000000000000000;
   11007767640518539026 # 100000000000000000000; 11186763167005629731 # 100000000000000000000; 11367076788274431301 # 100000000000000000000;
   11548716357863353664 # 100000000000000000000; 11731689921155557057 # 100000000000000000000; 11916005717532768467 # 100000000000000000000;
   12101672182667483729 # 100000000000000000000; 12288697950954513498 # 100000000000000000000; 12477091858083096578 # 100000000000000000000;
   12666862943751066518 # 100000000000000000000; 12858020454522817870 # 100000000000000000000; 13050573846833078225 # 100000000000000000000;
   13244532790138752023 # 100000000000000000000; 13439907170221363078 # 100000000000000000000; 13636707092642885841 # 100000000000000000000;
   13834942886358021406 # 100000000000000000000; 14034625107486244210 # 100000000000000000000; 14235764543247220043 # 100000000000000000000;
   14438372216063476473 # 100000000000000000000; 14642459387834493787 # 100000000000000000000; 14848037564386679222 # 100000000000000000000;
   15055118500103990354 # 100000000000000000000; 15263714202744286154 # 100000000000000000000; 15473836938446807312 # 100000000000000000000;
   15685499236936522013 # 100000000000000000000; 15898713896931420572 # 100000000000000000000; 16113493991759203183 # 100000000000000000000;
   16329852875190180795 # 100000000000000000000; 16547804187493600915 # 100000000000000000000; 16767361861725019322 # 100000000000000000000;
   16988540130252766513 # 100000000000000000000; 17211353531532005700 # 100000000000000000000; 17435816917135348788 # 100000000000000000000;
   17661945459049489581 # 100000000000000000000; 17889754657247831241 # 100000000000000000000; 18119260347549629488 # 100000000000000000000;
   18350478709776746150 # 100000000000000000000; 18583426276219711495 # 100000000000000000000; 18818119940425430485 # 100000000000000000000;
   19054576966319540013 # 100000000000000000000; 19292814997677133873 # 100000000000000000000; 19532852067956322315 # 100000000000000000000;
   19774706610509886464 # 100000000000000000000; 20018397469191127727 # 100000000000000000000; 20263943909370901930 # 100000000000000000000;
   20511365629383770880 # 100000000000000000000; 20760682772422204205 # 100000000000000000000; 21011915938898825914 # 100000000000000000000;
   21265086199297827522 # 100000000000000000000; 21520215107537867786 # 100000000000000000000; 21777324714870053264 # 100000000000000000000;
   22036437584335949720 # 100000000000000000000; 22297576805812018050 # 100000000000000000000; 22560766011668406495 # 100000000000000000000;
   22826029393071670664 # 100000000000000000000; 23093391716962742173 # 100000000000000000000; 23362878343743333945 # 100000000000000000000;
   23634515245705964715 # 100000000000000000000; 23908329026244917002 # 100000000000000000000; 24184346939887722761 # 100000000000000000000;
   24462596913189210901 # 100000000000000000000; 24743107566532763894 # 100000000000000000000; 25025908236886230967 # 100000000000000000000;
   25311029001562948171 # 100000000000000000000; 25598500703041538015 # 100000000000000000000; 25888354974901621678 # 100000000000000000000;
   26180624268936295243 # 100000000000000000000; 26475341883506220209 # 100000000000000000000; 26772541993204481808 # 100000000000000000000;
   27072259679906003167 # 100000000000000000000; 27374530965280298302 # 100000000000000000000; 27679392844851734458 # 100000000000000000000;
   27986883323697289920 # 100000000000000000000; 28297041453878076010 # 100000000000000000000; 28609907373707684673 # 100000000000000000000;
   28925522348967773308 # 100000000000000000000; 29243928816189258772 # 100000000000000000000; 29565170428126120948 # 100000000000000000000;
   29889292101558177099 # 100000000000000000000; 30216340067569352897 # 100000000000000000000; 30546361924459023541 # 100000000000000000000;
   30879406693456016794 # 100000000000000000000; 31215524877417956945 # 100000000000000000000; 31554768522712893632 # 100000000000000000000;
   31897191284495723773 # 100000000000000000000; 32242848495608914289 # 100000000000000000000; 32591797239355619822 # 100000000000000000000;
   32944096426413633091 # 100000000000000000000; 33299806876180896713 # 100000000000000000000; 33658991402867758144 # 100000000000000000000;
   34021714906678004560 # 100000000000000000000; 34388044470450243010 # 100000000000000000000; 34758049462163698567 # 100000000000000000000;
   35131801643748334681 # 100000000000000000000; 35509375286678745925 # 100000000000000000000; 35890847294874976196 # 100000000000000000000;
   36276297335481777335 # 100000000000000000000; 36665807978151414890 # 100000000000000000000; 37059464843514599421 # 100000000000000000000;
   37457356761590215193 # 100000000000000000000; 37859575940958081092 # 100000000000000000000; 38266218149600982112 # 100000000000000000000;
   38677382908413768115 # 100000000000000000000; 39093173698479710717 # 100000000000000000000; 39513698183329015336 # 100000000000000000000;
   39939068447523107877 # 100000000000000000000; 40369401253053026739 # 100000000000000000000; 40804818315203238238 # 100000000000000000000;
   41245446599716116772 # 100000000000000000000; 41691418643300289465 # 100000000000000000000; 42142872899761659635 # 100000000000000000000;
   42599954114303435739 # 100000000000000000000; 43062813728845883923 # 100000000000000000000; 43531610321563659758 # 100000000000000000000;
   44006510084235387501 # 100000000000000000000; 44487687341454851593 # 100000000000000000000; 44975325116275498919 # 100000000000000000000;
   45469615747461548049 # 100000000000000000000; 45970761564213768669 # 100000000000000000000; 46478975625042618067 # 100000000000000000000;
   46994482528395999841 # 100000000000000000000; 47517519303737738299 # 100000000000000000000; 48048336393045423016 # 100000000000000000000;
   48587198734188493564 # 100000000000000000000; 49134386959403255500 # 100000000000000000000; 49690198724154955294 # 100000000000000000000;
   50254950184134769289 # 100000000000000000000; 50828977641064283495 # 100000000000000000000; 51412639381474855788 # 100000000000000000000;
   52006317736823356823 # 100000000000000000000; 52610421398361972602 # 100000000000000000000; 53225388026304326945 # 100000000000000000000;
   53851687200286186590 # 100000000000000000000; 54489823767243963663 # 100000000000000000000; 55140341654064131685 # 100000000000000000000;
   55803828226258748140 # 100000000000000000000; 56480919291240022434 # 100000000000000000000; 57172304866482579008 # 100000000000000000000;
   57878735860284503057 # 100000000000000000000; 58601031847726802755 # 100000000000000000000; 59340090169173341521 # 100000000000000000000;
   60096896636523224742 # 100000000000000000000; 60872538207962206507 # 100000000000000000000; 61668218091520762326 # 100000000000000000000;
   62485273870366592605 # 100000000000000000000; 63325199421436607968 # 100000000000000000000; 64189671642726607018 # 100000000000000000000;
   65080583341457104881 # 100000000000000000000; 66000084107899974178 # 100000000000000000000; 66950631673192477684 # 100000000000000000000;
   67935057226476538741 # 100000000000000000000; 68956649611707798890 # 100000000000000000000; 70019265508278816709 # 100000000000000000000;
   71127476080507597882 # 100000000000000000000; 72286765959357200702 # 100000000000000000000; 73503809243142351530 # 100000000000000000000;
   74786862198519510742 # 100000000000000000000; 76146338884989624862 # 100000000000000000000; 77595685204011559675 # 100000000000000000000;
   79152763697249565519 # 100000000000000000000; 80842165152300838005 # 100000000000000000000; 82699329664305033399 # 100000000000000000000;
   84778550062398962096 # 100000000000000000000; 87170433238120363669 # 100000000000000000000; 90046992992574643800 # 100000000000000000000;
   93814368086217467916 # 100000000000000000000; 1].
(* normal_distribution.hpp:44-79, the table of type double *)
Definition nm_x : list Q := map dlit [
   37130862467403632609 # 10000000000000000000; 34426198558966521214 # 10000000000000000000; 32230849845786185446 # 10000000000000000000;
   30832288582142137009 # 10000000000000000000; 29786962526450169606 # 10000000000000000000; 28943440070186706210 # 10000000000000000000;
   28231253505459664379 # 10000000000000000000; 27611693723841538514 # 10000000000000000000; 27061135731187223371 # 10000000000000000000;
   26564064112581924999 # 10000000000000000000; 26109722484286132035 # 10000000000000000000; 25690336259216391328 # 10000000000000000000;
   25300096723854666170 # 10000000000000000000; 24934545220919507609 # 10000000000000000000; 24590181774083500943 # 10000000000000000000;
   24264206455302115930 # 10000000000000000000; 23954342780074673425 # 10000000000000000000; 23658713701139875435 # 10000000000000000000;
   23375752413355307354 # 10000000000000000000; 23104136836950021558 # 10000000000000000000; 22842740596736568056 # 10000000000000000000;
   22590595738653295251 # 10000000000000000000; 22346863955870569803 # 10000000000000000000; 22110814088747278106 # 10000000000000000000;
   21881804320720206093 # 10000000000000000000; 21659267937448407377 # 10000000000000000000; 21442701823562613518 # 10000000000000000000;
   21231657086697899595 # 10000000000000000000; 21025731351849988838 # 10000000000000000000; 20824562379877246441 # 10000000000000000000;
   20627822745039633575 # 10000000000000000000; 20435215366506694976 # 10000000000000000000; 20246469733729338782 # 10000000000000000000;
   20061338699589668403 # 10000000000000000000; 19879595741230607243 # 10000000000000000000; 19701032608497132242 # 10000000000000000000;
   19525457295488889058 # 10000000000000000000; 19352692282919002011 # 10000000000000000000; 19182573008597320303 # 10000000000000000000;
   19014946531003176140 # 10000000000000000000; 18849670357028692380 # 10000000000000000000; 18686611409895420085 # 10000000000000000000;
   18525645117230870617 # 10000000000000000000; 18366654602533840447 # 10000000000000000000; 18209529965910050740 # 10000000000000000000;
   18054167642140487420 # 10000000000000000000; 17900469825946189862 # 10000000000000000000; 17748343955807692457 # 10000000000000000000;
   17597702248942318749 # 10000000000000000000; 17448461281083765085 # 10000000000000000000; 17300541605582435350 # 10000000000000000000;
   17153867407081165482 # 10000000000000000000; 17008366185643009437 # 10000000000000000000; 16863968467734863258 # 10000000000000000000;
   16720607540918522072 # 10000000000000000000; 16578219209482075462 # 10000000000000000000; 16436741568569826489 # 10000000000000000000;
   16296114794646783962 # 10000000000000000000; 16156280950371329644 # 10000000000000000000; 16017183802152770587 # 10000000000000000000;
   15878768648844007019 # 10000000000000000000; 15740982160167497219 # 10000000000000000000; 15603772223598406870 # 10000000000000000000;
   15467087798535034608 # 10000000000000000000; 15330878776675560787 # 10000000000000000000; 15195095847593707806 # 10000000000000000000;
   15059690368565502602 # 10000000000000000000; 14924614237746154081 # 10000000000000000000; 14789819769830978546 # 10000000000000000000;
   14655259573357946276 # 10000000000000000000; 14520886428822164926 # 10000000000000000000; 14386653166774613138 # 10000000000000000000;
   14252512545068615734 # 10000000000000000000; 14118417124397602509 # 10000000000000000000; 13984319141236063517 # 10000000000000000000;
   13850170377251486449 # 10000000000000000000; 13715922024197322698 # 10000000000000000000; 13581524543224228739 # 10000000000000000000;
   13446927517457130432 # 10000000000000000000; 13312079496576765017 # 10000000000000000000; 13176927832013429910 # 10000000000000000000;
   13041418501204215390 # 10000000000000000000; 12905495919178731508 # 10000000000000000000; 12769102735516997175 # 10000000000000000000;
   12632179614460282310 # 10000000000000000000; 12494664995643337480 # 10000000000000000000; 12356494832544811749 # 10000000000000000000;
   12217602305309625678 # 10000000000000000000; 12077917504067576028 # 10000000000000000000; 11937367078237721994 # 10000000000000000000;
   11795873846544607035 # 10000000000000000000; 11653356361550469083 # 10000000000000000000; 11509728421389760651 # 10000000000000000000;
   11364898520030755352 # 10000000000000000000; 11218769225722540661 # 10000000000000000000; 11071236475235353980 # 10000000000000000000;
   10922188768965537614 # 10000000000000000000; 10771506248819376573 # 10000000000000000000; 10619059636836193998 # 10000000000000000000;
   10464709007525802629 # 10000000000000000000; 10308302360564555907 # 10000000000000000000; 10149673952392994716 # 10000000000000000000;
   99886423348064351303 # 100000000000000000000; 98250080350276038481 # 100000000000000000000; 96585507938813059489 # 100000000000000000000;
   94890262549791195381 # 100000000000000000000; 93161619660135381056 # 100000000000000000000; 91396525100880177644 # 100000000000000000000;
   89591535256623852894 # 100000000000000000000; 87742742909771569142 # 100000000000000000000; 85845684317805086354 # 100000000000000000000;
   83895221428120745572 # 100000000000000000000; 81885390668331772331 # 100000000000000000000; 79809206062627480454 # 100000000000000000000;
   77658398787614838598 # 100000000000000000000; 75423066443451007146 # 100000000000000000000; 73091191062188128150 # 100000000000000000000;
   70647961131360803456 # 100000000000000000000; 68074791864590421664 # 100000000000000000000; 65347863871504238702 # 100000000000000000000;
   62435859730908822111 # 100000000000000000000; 59296294244197797913 # 100000000000000000000; 55869217837551797140 # 100000000000000000000;
   52065603872514491759 # 100000000000000000000; 47743783725378787681 # 100000000000000000000; 42654798630330512490 # 100000000000000000000;
   36287143102841830424 # 100000000000000000000; 27232086470466385065 # 100000000000000000000; 0].
(* normal_distribution.hpp:81-116, the table of type double *)
Definition nm_y : list Q := map dlit [
   0; 26696290839025035092 # 10000000000000000000000; 55489952208164705392 # 10000000000000000000000;
   86244844129304709682 # 10000000000000000000000; 11839478657982313715 # 1000000000000000000000; 15167298010672042468 # 1000000000000000000000;
   18592102737165812650 # 1000000000000000000000; 22103304616111592615 # 1000000000000000000000; 25693291936149616572 # 1000000000000000000000;
   29356317440253829618 # 1000000000000000000000; 33087886146505155566 # 1000000000000000000000; 36884388786968774128 # 1000000000000000000000;
   40742868074790604632 # 1000000000000000000000; 44660862200872429800 # 1000000000000000000000; 48636295860284051878 # 1000000000000000000000;
   52667401903503169793 # 1000000000000000000000; 56752663481538584188 # 1000000000000000000000; 60890770348566375972 # 1000000000000000000000;
   65080585213631873753 # 1000000000000000000000; 69321117394180252601 # 1000000000000000000000; 73611501884754893389 # 1000000000000000000000;
   77950982514654714188 # 1000000000000000000000; 82338898242957408243 # 1000000000000000000000; 86774671895542968998 # 1000000000000000000000;
   91257800827634710201 # 1000000000000000000000; 9578784912257815216 # 100000000000000000000; 10036444102954554013 # 100000000000000000000;
   10498725541035453978 # 100000000000000000000; 10965602101581776100 # 100000000000000000000; 11437051244988827452 # 100000000000000000000;
   11913054670871858767 # 100000000000000000000; 12393598020398174246 # 100000000000000000000; 12878670619710396109 # 100000000000000000000;
   13368265258464764118 # 100000000000000000000; 13862377998585103702 # 100000000000000000000; 14361008009193299469 # 100000000000000000000;
   14864157424369696566 # 100000000000000000000; 15371831220958657066 # 100000000000000000000; 15884037114093507813 # 100000000000000000000;
   16400785468492774791 # 100000000000000000000; 16922089223892475176 # 100000000000000000000; 17447963833240232295 # 100000000000000000000;
   17978427212496211424 # 100000000000000000000; 18513499701071343216 # 100000000000000000000; 19053204032091372112 # 100000000000000000000;
   19597565311811041399 # 100000000000000000000; 20146611007620324118 # 100000000000000000000; 20700370944187380064 # 100000000000000000000;
   21258877307373610060 # 100000000000000000000; 21822164655637059599 # 100000000000000000000; 22390269938713388747 # 100000000000000000000;
   22963232523430270355 # 100000000000000000000; 23541094226572765600 # 100000000000000000000; 24123899354775131610 # 100000000000000000000;
   24711694751469673582 # 100000000000000000000; 25304529850976585934 # 100000000000000000000; 25902456739871074263 # 100000000000000000000;
   26505530225816194029 # 100000000000000000000; 27113807914102527343 # 100000000000000000000; 27727350292189771153 # 100000000000000000000;
   28346220822601251779 # 100000000000000000000; 28970486044581049771 # 100000000000000000000; 29600215684985583659 # 100000000000000000000;
   30235482778947976274 # 100000000000000000000; 30876363800925192282 # 100000000000000000000; 31522938806815752222 # 100000000000000000000;
   32175291587920862031 # 100000000000000000000; 32833509837615239609 # 100000000000000000000; 33497685331697116147 # 100000000000000000000;
   34167914123501368412 # 100000000000000000000; 34844296754987246935 # 100000000000000000000; 35526938485154714435 # 100000000000000000000;
   36215949537303321162 # 100000000000000000000; 36911445366827513952 # 100000000000000000000; 37613546951445442947 # 100000000000000000000;
   38322381105988364587 # 100000000000000000000; 39038080824138948916 # 100000000000000000000; 39760785649804255208 # 100000000000000000000;
   40490642081148835099 # 100000000000000000000; 41227804010702462062 # 100000000000000000000; 41972433205403823467 # 100000000000000000000;
   42724699830956239880 # 100000000000000000000; 43484783025466189638 # 100000000000000000000; 44252871528024661483 # 100000000000000000000;
   45029164368692696086 # 100000000000000000000; 45813871627287196483 # 100000000000000000000; 46607215269457097924 # 100000000000000000000;
   47409430069824960453 # 100000000000000000000; 48220764633483869062 # 100000000000000000000; 49041482528932163741 # 100000000000000000000;
   49871863547658432422 # 100000000000000000000; 50712205108130458951 # 100000000000000000000; 51562823824987205196 # 100000000000000000000;
   52424057267899279809 # 100000000000000000000; 53296265938998758838 # 100000000000000000000; 54179835503172412311 # 100000000000000000000;
   55075179312105527738 # 100000000000000000000; 55982741271069481791 # 100000000000000000000; 56902999107472161225 # 100000000000000000000;
   57836468112670231279 # 100000000000000000000; 58783705444182052571 # 100000000000000000000; 59745315095181228217 # 100000000000000000000;
   60721953663260488551 # 100000000000000000000; 61714337082656248870 # 100000000000000000000; 62723248525781456578 # 100000000000000000000;
   63749547734314487428 # 100000000000000000000; 64794182111855080873 # 100000000000000000000; 65858200005865368016 # 100000000000000000000;
   66942766735770616891 # 100000000000000000000; 68049184100641433355 # 100000000000000000000; 69178914344603585279 # 100000000000000000000;
   70333609902581741633 # 100000000000000000000; 71515150742047704368 # 100000000000000000000; 72725691835450587793 # 100000000000000000000;
   73967724368333814856 # 100000000000000000000; 75244155918570380145 # 100000000000000000000; 76558417390923599480 # 100000000000000000000;
   77914608594170316563 # 100000000000000000000; 79317701178385921053 # 100000000000000000000; 80773829469612111340 # 100000000000000000000;
   82290721139526200050 # 100000000000000000000; 83878360531064722379 # 100000000000000000000; 85550060788506428418 # 100000000000000000000;
   87324304892685358879 # 100000000000000000000; 89228165080230272301 # 100000000000000000000; 91304364799203805999 # 100000000000000000000;
   93628268170837107547 # 100000000000000000000; 96359969315576759960 # 100000000000000000000; 1].
