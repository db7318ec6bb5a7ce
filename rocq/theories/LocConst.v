(** The constants of util/util.go:29-45 and 71-302 as bit patterns: the decimal
    literals rounded to the format, and the sines and cosines the Go program
    computes from the tables when the circuit is built (loc2index32.go:87-92;
    here computed with the algorithm of Go's [math] package, outside Coq).
    Most theorems hold for all tables; C44, C46 and C48 are about these. *)
From Coq Require Import ZArith List.
From Verif Require Import Loc2Index.
Import ListNotations.
Local Open Scope Z_scope.

(** 0.5, 1/3, 2/3, Sin60_32, ResConst_32; Sqrt7_32 and its repeated squares. *)
Definition constants32 : constants :=
  mkConstants 1056964608 1051372203 1059760811 1063105495 1053004045
    [1076450301; 1088421887; 1111752702; 1159073789].

Definition faces32 : list face := [
  mkFace 1046558089 1059621602 1060653038 1060653038 1060221606
    1064488822 1050818870 3206388757 1061796608 3210147199 1057687306;
  mkFace 3193638594 1041718627 1064776110 1064776110 1048912395
    1058113380 3209862306 3204426378 1063111805 3208733760 1059568809;
  mkFace 1038075144 3203817270 1063168445 1063168445 1056744628
    3212420397 1046658590 1060377619 1060500629 1054683853 1063706702;
  mkFace 1061039068 3199730307 1058051782 1058051782 1062421019
    3202284305 1063678586 1054189569 1063822630 1036408380 1065274356;
  mkFace 1062186575 1051760159 1056029740 1056029740 1063365523
    1053315524 1064015819 3189504521 1065157444 3203355627 1063407501;
  mkFace 3185060480 1065008373 1043333956 1043333956 1065103514
    1065256637 3185274508 1054743573 3211176009 1060401140 3207960952;
  mkFace 3209607934 1042090281 1058131064 1058131064 1062366422
    1044319268 3212542285 1042399644 3212626221 1056041196 3210846101;
  mkFace 3197221128 3210562009 1054095008 1054095008 1063844252
    3211995280 3198164965 3200468981 3211568618 3178024525 3212808802;
  mkFace 1061000571 3207255587 3181494845 3181494845 1065300802
    3207290673 1061039509 3199262229 3211804046 3164444866 3212833759;
  mkFace 1062857276 1056032948 3194644573 3194644573 1064907726
    1056465177 1063246835 1041055601 3212676490 1055439104 3211003587;
  mkFace 3208484219 1059771939 1034011197 1034011197 1065300802
    1059807027 3208523156 3199262236 1064320397 3206689537 1061556002;
  mkFace 3210340924 3203516596 1047160925 1047160925 1064907726
    3203948826 3210730483 1041055598 1065192842 3192292118 1065034941;
  mkFace 1037576832 3212492021 3190817604 3190817604 1065103514
    3212740285 1037790864 1054743575 1063692361 1038843450 1065241933;
  mkFace 1062124286 3189573929 3205614712 3205614712 1062366422
    3191802909 1065058637 1042399650 1065142573 3190956290 1065097427;
  mkFace 1049737480 1063078361 3201578656 3201578656 1063844252
    1064511632 1050681318 3200468988 1064084969 3207182612 1061136042;
  mkFace 3208522716 1052246659 3205535430 3205535430 1062421019
    1054800656 3211162234 1054189571 3211306278 1060182039 3208174715;
  mkFace 3209670223 3199243807 3203513388 3203513388 1063365523
    3200799171 3211499467 3189504523 3212641092 1043850022 3212564131;
  mkFace 3194041737 3207105250 3208136686 3208136686 1060221606
    3211972469 3198302521 3206388758 3209280256 3198536303 3211932943;
  mkFace 1046154946 3189202275 3212259758 3212259758 1048912395
    3205597029 1062378657 3204426385 3210595451 3191915224 3212536928;
  mkFace 3185558792 1056333622 3210652093 3210652093 1056744628
    1064936749 3194142236 1060377620 3207984276 1063630733 3202480494].

(** 0.5, 1/3, 2/3, Sin60_64, ResConst_64; Sqrt7_64 and its repeated squares. *)
Definition constants64 : constants :=
  mkConstants 4602678819172646912 4599676419421066581 4604180019048437077 4605975682916830378 4600552507861642590
    [4613140121109330154; 4619567317775286273; 4632092954238910466; 4657498269910302723].

Definition faces64 : list face := [
  mkFace 4597091861690409674 4604105281914950150 4604659029752109945 4604659029752109945 4604427406651911024
    4606718350524196182 4599379352039030066 13827092655630054066 4605272978754667903 13829110453204150518 4603066813612355575;
  mkFace 13820247462908126099 4594493695571138712 4606872587300259120 4606872587300259120 4598355819977337112
    4603295562166196353 13828957501325761321 13826039112998505876 4605979069892183837 13828351619627520551 4604076937895323586;
  mkFace 4592537615540590202 13825712098096888392 4606009478904312745 4606009478904312745 4602560718569615973
    13830330866673084780 4597145818469064250 4604511165362881657 4604577205878515291 4601454348174859700 4606298453115364745;
  mkFace 4604866278131541001 13823517926533915417 4603262491031493308 4603262491031493308 4605608207318717945
    13824889093835922842 4606283358526342746 4601188981439345092 4606360691880676684 4591642778478477386 4607140080967741607;
  mkFace 4605482341203899913 4599884701724246318 4602176915938060082 4602176915938060082 4606115283985631678
    4600719732214235107 4606464409293327187 13818027997057617288 4607077314559066095 13825464253846526649 4606137821170662133;
  mkFace 13815642123235207140 4606997282391359351 4595360918733043250 4595360918733043252 4607048360982763801
    4607130568499458954 13815757031686965801 4601486411062895656 13829662790778924276 4604523793501710628 13827936720159577896;
  mkFace 13828820936913655861 4594693225413773036 4603305055504862620 4603305055504862620 4605578895756615143
    4595889900346837640 13830396304876945069 4594859316801191045 13830441367368347151 4602183067168970781 13829485672793621649;
  mkFace 13822170821327296958 13829333152369533399 4601138214395845055 4601138214395845054 4606372300131686976
    13830102633602280114 13822677539747045313 13823914498998870596 13829873571322652238 13811864722093185027 13830539390000683150;
  mkFace 4604845610367296014 13827558030286514021 13813727837565429188 13813727837565429188 4607154279431069268
    13827576867379283902 4604866514625732478 13823266630779772141 13829999965258245315 13804574231805730583 13830552788716886188;
  mkFace 4605842421357586419 4602178638208536455 13820787543777866658 13820787543777866657 4606943248039753975
    4602410689237274161 4606051564209676639 4594137734585596471 13830468355528169695 4601859819514551720 13829570222513403262;
  mkFace 13828217647222071821 4604185993431738213 4590355800710653380 4590355800710653380 4607154279431069268
    4604204830524508094 13828238551480508285 13823266630779772139 4606627928403469507 13827254133704698252 4605143805473879346;
  mkFace 13829214458212362226 13825550675063312265 4597415506923090850 4597415506923090849 4606943248039753975
    13825782726092049972 13829423601064452446 4594137734585596466 4607096318673393887 13819524579115906980 4607011546085035359;
  mkFace 4592270086380431318 13830369319246135159 13818732955587819058 13818732955587819060 4607048360982763801
    13830502605354234763 4592384994832189985 4601486411062895660 4606290753924148467 4592950097347555668 4607122674159243951;
  mkFace 4605448900058880053 13818065262268548847 13826677092359638428 13826677092359638428 4605578895756615143
    13819261937201613451 4607024268022169261 4594859316801191053 4607069330513571343 13818807412215494919 4607045092976792892;
  mkFace 4598798784472521152 4605961115514757590 13824510251250620863 13824510251250620862 4606372300131686976
    4606730596747504306 4599305502892269507 13823914498998870602 4606501534467876429 13827518850540266355 4604918342103792384;
  mkFace 13828238314986316809 4600145889679139607 13826634527886269116 13826634527886269116 4605608207318717945
    4601517056981147033 13829655395381118554 4601188981439345093 13829732728735452491 4604406163783038857 13828051483665492886;
  mkFace 13828854378058675722 13823256738579022123 13825548952792835890 13825548952792835890 4606115283985631678
    13824091769069010912 13829836446148102996 13818027997057617275 13830449351413841903 4595637982853919964 13830408033027491934;
  mkFace 13820463898545185485 13827477318769725958 13828031066606885753 13828031066606885753 4604427406651911024
    13830090387378971990 13822751388893805876 13827092655630054063 13828645015609443713 13822876902140419340 13830069166428593279;
  mkFace 4596875426053350288 13817865732425914524 13830244624155034928 13830244624155034928 4598355819977337112
    13826667599020972163 4605585464470985512 13826039112998505877 13829351106746959644 13819322232954149891 13830393428969063746;
  mkFace 13815909652395366003 4602340061242112584 13829381515759088553 13829381515759088553 4602560718569615973
    4606958829818308972 13820517855323840054 4604511165362881657 13827949242733291099 4606257667526630438 13824994423539054134].

