(** dg1d/rk_coeffs.py: the Butcher tables.

    Generated from the source text: every entry is the exact value of the written expression, an
    element of Q(sqrt 5) (decimal literals are read as exact decimals; sqrt 5 occurs in RK6 only).
    Simplification: the doubles the code computes are the roundings of these numbers. *)
From Coq Require Import ZArith QArith List.
From Verif Require Import Num.
Import ListNotations.
Open Scope Z_scope.

(** an entry (a/b) + (c/d)*sqrt(5) *)
Record centry := { ce_n : Z; ce_d : positive; ce_n5 : Z; ce_d5 : positive }.
Definition c5 (a : Z) (b : positive) (c : Z) (d : positive) : centry :=
  {| ce_n := a; ce_d := b; ce_n5 := c; ce_d5 := d |}.
Definition cq (a : Z) (b : positive) : centry := c5 a b 0 1.
Definition c0 : centry := cq 0 1.

Definition ceval {A} {N : Num A} (c : centry) : A :=
  match ce_n5 c with
  | 0 => lit (ce_n c) (Zpos (ce_d c))
  | _ => nadd (lit (ce_n c) (Zpos (ce_d c))) (nmul (lit (ce_n5 c) (Zpos (ce_d5 c))) (nsqrt (nofZ 5)))
  end.

(** bottom row, left column and main matrix of a Butcher table *)
Record rk_table := { tb_coeffs : list centry; tb_alphas : list centry; tb_betas : list (list centry) }.

(** get_rk3_coefficients, rk_coeffs.py:16-35 *)
Definition rk3_table : rk_table := {|
  tb_coeffs := [cq 1 6; cq 2 3; cq 1 6];
  tb_alphas := [c0; cq 1 2; cq 1 1];
  tb_betas := [
    [c0; c0];
    [cq 1 2; c0];
    [cq (-1) 1; cq 2 1]] |}.

(** get_rk4_coefficients, rk_coeffs.py:36-55 *)
Definition rk4_table : rk_table := {|
  tb_coeffs := [cq 1 6; cq 1 3; cq 1 3; cq 1 6];
  tb_alphas := [c0; cq 1 2; cq 1 2; cq 1 1];
  tb_betas := [
    [c0; c0; c0];
    [cq 1 2; c0; c0];
    [c0; cq 1 2; c0];
    [c0; c0; cq 1 1]] |}.

(** get_rk5_coefficients, rk_coeffs.py:56-98 *)
Definition rk5_table : rk_table := {|
  tb_coeffs := [cq 37 378; c0; cq 250 621; cq 125 594; c0; cq 512 1771];
  tb_alphas := [c0; cq 1 5; cq 3 10; cq 3 5; cq 1 1; cq 7 8];
  tb_betas := [
    [c0; c0; c0; c0; c0];
    [cq 1 5; c0; c0; c0; c0];
    [cq 3 40; cq 9 40; c0; c0; c0];
    [cq 3 10; cq (-9) 10; cq 6 5; c0; c0];
    [cq (-11) 54; cq 5 2; cq (-70) 27; cq 35 27; c0];
    [cq 1631 55296; cq 175 512; cq 575 13824; cq 44275 110592; cq 253 4096]] |}.

(** get_rk6_coefficients, rk_coeffs.py:99-152 *)
Definition rk6_table : rk_table := {|
  tb_coeffs := [cq 1 12; c0; c0; c0; cq 5 12; cq 5 12; cq 1 12];
  tb_alphas := [c0; cq 4 7; cq 5 7; cq 6 7; c5 1 2 (-1) 10; c5 1 2 1 10; cq 1 1];
  tb_betas := [
    [c0; c0; c0; c0; c0; c0];
    [cq 4 7; c0; c0; c0; c0; c0];
    [cq 115 112; cq (-5) 16; c0; c0; c0; c0];
    [cq 589 630; cq 5 18; cq (-16) 45; c0; c0; c0];
    [c5 229 1200 (-29) 6000; c5 119 240 (-187) 1200; c5 (-14) 75 34 375; c5 0 1 (-3) 100; c0; c0];
    [c5 71 2400 (-587) 12000; c5 187 480 (-391) 2400; c5 (-38) 75 26 375; c5 27 80 (-3) 400; c5 1 4 1 4; c0];
    [c5 (-49) 480 43 160; c5 (-425) 96 51 32; c5 52 15 (-4) 5; c5 (-27) 16 3 16; c5 5 4 (-3) 4; c5 5 2 (-1) 2]] |}.

(** get_rk8_coefficients, rk_coeffs.py:153-258 *)
Definition rk8_table : rk_table := {|
  tb_coeffs := [cq 14005451 335480064; c0; c0; c0; c0; cq (-59238493) 1068277825; cq 181606767 758867731; cq 561292985 797845732; cq (-1041891430) 1371343529; cq 760417239 1151165299; cq 118820643 751138087; cq (-528747749) 2220607170; cq 1 4];
  tb_alphas := [c0; cq 1 18; cq 1 12; cq 1 8; cq 5 16; cq 3 8; cq 59 400; cq 93 200; cq 5490023248 9719169821; cq 13 20; cq 1201146811 1299019798; cq 1 1; cq 1 1];
  tb_betas := [
    [c0; c0; c0; c0; c0; c0; c0; c0; c0; c0; c0; c0];
    [cq 1 18; c0; c0; c0; c0; c0; c0; c0; c0; c0; c0; c0];
    [cq 1 48; cq 1 16; c0; c0; c0; c0; c0; c0; c0; c0; c0; c0];
    [cq 1 32; c0; cq 3 32; c0; c0; c0; c0; c0; c0; c0; c0; c0];
    [cq 5 16; c0; cq (-75) 64; cq 75 64; c0; c0; c0; c0; c0; c0; c0; c0];
    [cq 3 80; c0; c0; cq 3 16; cq 3 20; c0; c0; c0; c0; c0; c0; c0];
    [cq 29443841 614563906; c0; c0; cq 77736538 692538347; cq (-28693883) 1125000000; cq 23124283 1800000000; c0; c0; c0; c0; c0; c0];
    [cq 16016141 946692911; c0; c0; cq 61564180 158732637; cq 22789713 633445777; cq 545815736 2771057229; cq (-180193667) 1043307555; c0; c0; c0; c0; c0];
    [cq 39632708 573591083; c0; c0; cq (-433636366) 683701615; cq (-421739975) 2616292301; cq 100302831 723423059; cq 790204164 839813087; cq 800635310 3783071287; c0; c0; c0; c0];
    [cq 246121993 1340847787; c0; c0; cq (-37695042795) 15268766246; cq (-309121744) 1061227803; cq (-12992083) 490766935; cq 6005943493 2108947869; cq 393006217 1396673457; cq 123872331 1001029789; c0; c0; c0];
    [cq (-1028468189) 846180014; c0; c0; cq 8478235783 508512852; cq 1311729495 1432422823; cq (-10304129995) 1701304382; cq (-48777925059) 3047939560; cq 15336726248 1032824649; cq (-45442868181) 3398467696; cq 3065993473 597172653; c0; c0];
    [cq 185892177 718116043; c0; c0; cq (-3185094517) 667107341; cq (-477755414) 1098053517; cq (-703635378) 230739211; cq 5731566787 1027545527; cq 5232866602 850066563; cq (-4093664535) 808688257; cq 3962137247 1805957418; cq 65686358 487910083; c0];
    [cq 403863854 491063109; c0; c0; cq (-5068492393) 434740067; cq (-411421997) 543043805; cq 652783627 914296604; cq 11173962825 925320556; cq (-13158990841) 6184727034; cq 3936647629 1978049680; cq (-160528059) 685178525; cq 248638103 1413531060; c0]] |}.

(** get_rk10_coefficients, rk_coeffs.py:259-449 *)
Definition rk10_table : rk_table := {|
  tb_coeffs := [cq 333333333333333333333333333333333333333333333333333333333333 10000000000000000000000000000000000000000000000000000000000000; cq 1 40; cq 333333333333333333333333333333333333333333333333333333333333 10000000000000000000000000000000000000000000000000000000000000; c0; cq 1 20; c0; cq 1 25; c0; cq 94618739074461745079153202053006163119081173474312915163597 500000000000000000000000000000000000000000000000000000000000; cq 17339324282358948531772516410040896276781519982377552271217 62500000000000000000000000000000000000000000000000000000000; cq 17339324282358948531772516410040896276781519982377552271217 62500000000000000000000000000000000000000000000000000000000; cq 94618739074461745079153202053006163119081173474312915163597 500000000000000000000000000000000000000000000000000000000000; cq (-1) 25; cq (-1) 20; cq (-333333333333333333333333333333333333333333333333333333333333) 10000000000000000000000000000000000000000000000000000000000000; cq (-1) 40; cq 333333333333333333333333333333333333333333333333333333333333 10000000000000000000000000000000000000000000000000000000000000];
  tb_alphas := [c0; cq 1 10; cq 1078715681605963575064970395762604873714546899402018031011 2000000000000000000000000000000000000000000000000000000000; cq 3236147044817890725194911187287814621143640698206054093033 4000000000000000000000000000000000000000000000000000000000; cq 1236147044817890725194911187287814621143640698206054093033 4000000000000000000000000000000000000000000000000000000000; cq 196214838043959053650975909662112416097811349223744976405561 200000000000000000000000000000000000000000000000000000000000; cq 833333333333333333333333333333333333333333333333333333333333 1000000000000000000000000000000000000000000000000000000000000; cq 44252170732100297041158023243599592764478006725921746040523 125000000000000000000000000000000000000000000000000000000000; cq 882527661964732346425501486979669075182867844268052119663791 1000000000000000000000000000000000000000000000000000000000000; cq 5140926065922580385256603976163516287676013890905701567279 8000000000000000000000000000000000000000000000000000000000; cq 2859073934077419614743396023836483712323986109094298432721 8000000000000000000000000000000000000000000000000000000000; cq 117472338035267653574498513020330924817132155731947880336209 1000000000000000000000000000000000000000000000000000000000000; cq 833333333333333333333333333333333333333333333333333333333333 1000000000000000000000000000000000000000000000000000000000000; cq 1236147044817890725194911187287814621143640698206054093033 4000000000000000000000000000000000000000000000000000000000; cq 1078715681605963575064970395762604873714546899402018031011 2000000000000000000000000000000000000000000000000000000000; cq 1 10; cq 1 1];
  tb_betas := [
    [c0; c0; c0; c0; c0; c0; c0; c0; c0; c0; c0; c0; c0; c0; c0; c0];
    [cq 1 10; c0; c0; c0; c0; c0; c0; c0; c0; c0; c0; c0; c0; c0; c0; c0];
    [cq (-45758828068764572026000750963767107715947569383218486028233) 50000000000000000000000000000000000000000000000000000000000; cq 18181680027228415350656252714458057389702810467067234200877 12500000000000000000000000000000000000000000000000000000000; c0; c0; c0; c0; c0; c0; c0; c0; c0; c0; c0; c0; c0; c0];
    [cq 101129595150559085162340974602744206910738771818939190407281 500000000000000000000000000000000000000000000000000000000000; c0; cq 606777570903354510974045847616465241464432630913635142443687 1000000000000000000000000000000000000000000000000000000000000; c0; c0; c0; c0; c0; c0; c0; c0; c0; c0; c0; c0; c0];
    [cq 36804942941728715029820138694224132843354809595918283568927 200000000000000000000000000000000000000000000000000000000000; c0; cq 98983415613596184534070885255194396685318643731680200777873 500000000000000000000000000000000000000000000000000000000000; cq (-729547847313632629185146671595558023015011608914382961421311) 10000000000000000000000000000000000000000000000000000000000000; c0; c0; c0; c0; c0; c0; c0; c0; c0; c0; c0; c0];
    [cq 439503670103340668659888547066062737959443412472274267020689 5000000000000000000000000000000000000000000000000000000000000; c0; c0; cq 205229851260130322659087447960226713044017662951424347605203 500000000000000000000000000000000000000000000000000000000000; cq 482713753678866489204726942976896106809132737721421333413261 1000000000000000000000000000000000000000000000000000000000000; c0; c0; c0; c0; c0; c0; c0; c0; c0; c0; c0];
    [cq 21492512622561507554712005648645210035278315390915005564847 250000000000000000000000000000000000000000000000000000000000; c0; c0; cq 41360745380090272993610507207344146706030019354800254181079 125000000000000000000000000000000000000000000000000000000000; cq 48966295730945019284450701113589820117801547843379009721079 100000000000000000000000000000000000000000000000000000000000; cq (-29274255002834029471562303222359552653614224601007527834191) 400000000000000000000000000000000000000000000000000000000000; c0; c0; c0; c0; c0; c0; c0; c0; c0; c0];
    [cq 120930449125333720660378854927668953958938996999703678812621 1000000000000000000000000000000000000000000000000000000000000; c0; c0; c0; cq 260124675758295622809007617838335174368108756484693361887839 1000000000000000000000000000000000000000000000000000000000000; cq 325402621549091330158899334391231259332716675992700000776101 10000000000000000000000000000000000000000000000000000000000000; cq (-74472526477170125195015275320413140180619209095366340567357) 1250000000000000000000000000000000000000000000000000000000000; c0; c0; c0; c0; c0; c0; c0; c0; c0];
    [cq 55427189790195741754468085505109220954712890084328279903519 500000000000000000000000000000000000000000000000000000000000; c0; c0; c0; c0; cq (-302880744127502793810462476827758437763172207677169617309733) 5000000000000000000000000000000000000000000000000000000000000; cq 32176370560177839010089879904987890408140436860307712925111 100000000000000000000000000000000000000000000000000000000000; cq 51048572560806303157775901228512341674467213703175235406759 100000000000000000000000000000000000000000000000000000000000; c0; c0; c0; c0; c0; c0; c0; c0];
    [cq 112054414752879004829715002761802363003717611158172229329393 1000000000000000000000000000000000000000000000000000000000000; c0; c0; c0; c0; cq (-28988555180573183134469965668196155436333699949701367775237) 200000000000000000000000000000000000000000000000000000000000; cq (-83317429774064176647426302853936717927366855998028874492181) 250000000000000000000000000000000000000000000000000000000000; cq 124817307389220015338329210992494641965069204148168300310083 250000000000000000000000000000000000000000000000000000000000; cq 25475230446484305211804934502269312699332161617649480109253 50000000000000000000000000000000000000000000000000000000000; c0; c0; c0; c0; c0; c0; c0];
    [cq 113976783964185986138004186736901163890724752541486831640341 1000000000000000000000000000000000000000000000000000000000000; c0; c0; c0; c0; cq (-48050835262709808661638393070055954426334313961932686712899) 625000000000000000000000000000000000000000000000000000000000; cq 239527360324390649107711455271882373019741311201004119339563 1000000000000000000000000000000000000000000000000000000000000; cq 397774662368094639047830462488952104564716416343454639902613 1000000000000000000000000000000000000000000000000000000000000; cq 6722434804600465971913071715092340641071048926455052409189 625000000000000000000000000000000000000000000000000000000000; cq (-327769124164018874147061087350233395378262992392394071906457) 1000000000000000000000000000000000000000000000000000000000000; c0; c0; c0; c0; c0; c0];
    [cq 199578632070049011587856716121600080689684407605853486339071 2500000000000000000000000000000000000000000000000000000000000; c0; c0; c0; c0; cq (-260164843400301538257474943806479534360655721940841763468649) 5000000000000000000000000000000000000000000000000000000000000; cq (-72119268271068610216598044410429188633269910894121090377733) 1250000000000000000000000000000000000000000000000000000000000; cq 19478191571210416497630626214738287115614292135440936473809 100000000000000000000000000000000000000000000000000000000000; cq 72692461594162534863762412988535597429601733784118261933291 500000000000000000000000000000000000000000000000000000000000; cq (-97867838793958847194248341215711555906509630904895068916877) 1250000000000000000000000000000000000000000000000000000000000; cq (-57251649680549456092151582145277335485066609202829061337337) 500000000000000000000000000000000000000000000000000000000000; c0; c0; c0; c0; c0];
    [cq 985115610164857280120041500306517278413646677314195559520529 1000000000000000000000000000000000000000000000000000000000000; c0; c0; cq 41360745380090272993610507207344146706030019354800254181079 125000000000000000000000000000000000000000000000000000000000; cq 48966295730945019284450701113589820117801547843379009721079 100000000000000000000000000000000000000000000000000000000000; cq (-137896486574843567582112720930751902353904327148559471526397) 100000000000000000000000000000000000000000000000000000000000; cq (-215291048756908916668479249916383643337756515246856773328603) 250000000000000000000000000000000000000000000000000000000000; cq 4413061627483651886161802562611224639945013349071496373 762939453125000000000000000000000000000000000000000000; cq 13152310479404142675618424637492592219090730116133694263277 4000000000000000000000000000000000000000000000000000000000; cq (-238633905093136384013422325215527866148401465975954104585807) 100000000000000000000000000000000000000000000000000000000000; cq (-325479342483643918654589367587788726747711504674780680269911) 100000000000000000000000000000000000000000000000000000000000; cq (-216343541686422982353954211300054820889678036420109999154887) 100000000000000000000000000000000000000000000000000000000000; c0; c0; c0; c0];
    [cq 89508029577163289104961313233658513814815627924156134599171 100000000000000000000000000000000000000000000000000000000000; c0; cq 98983415613596184534070885255194396685318643731680200777873 500000000000000000000000000000000000000000000000000000000000; cq (-729547847313632629185146671595558023015011608914382961421311) 10000000000000000000000000000000000000000000000000000000000000; c0; cq (-170247247932401523947809874289193358657871944575140445433221) 200000000000000000000000000000000000000000000000000000000000; cq 24895007019908331357482413385898352708530057381485869014491 62500000000000000000000000000000000000000000000000000000000; cq 363937263181035606029412920047090044132027387893977804176229 100000000000000000000000000000000000000000000000000000000000; cq 30964575407966064473060332615034912983996347269794699262613 20000000000000000000000000000000000000000000000000000000000; cq (-212221714704053716026062427460427261025318461146260124401561) 100000000000000000000000000000000000000000000000000000000000; cq (-158350398545326172713384349625753212757269188934434237975291) 100000000000000000000000000000000000000000000000000000000000; cq (-85780804142968132461015909875674549456307940413775996486517) 50000000000000000000000000000000000000000000000000000000000; cq (-61009101437531863033853861103054218866398399592727641517283) 2500000000000000000000000000000000000000000000000000000000000; c0; c0; c0];
    [cq (-45758828068764572026000750963767107715947569383218486028233) 50000000000000000000000000000000000000000000000000000000000; cq 18181680027228415350656252714458057389702810467067234200877 12500000000000000000000000000000000000000000000000000000000; c0; c0; cq (-777333643644968233538931228575302137803351053629547286334469) 1000000000000000000000000000000000000000000000000000000000000; c0; cq (-182179132431035213918640711161496840022377818354020359929597) 2000000000000000000000000000000000000000000000000000000000000; c0; c0; c0; c0; c0; cq 182179132431035213918640711161496840022377818354020359929597 2000000000000000000000000000000000000000000000000000000000000; cq 777333643644968233538931228575302137803351053629547286334469 1000000000000000000000000000000000000000000000000000000000000; c0; c0];
    [cq 1 10; c0; cq (-78589332899885581683529499136564460933591877063354709704827) 500000000000000000000000000000000000000000000000000000000000; c0; c0; c0; c0; c0; c0; c0; c0; c0; c0; c0; cq 78589332899885581683529499136564460933591877063354709704827 500000000000000000000000000000000000000000000000000000000000; c0];
    [cq 36356260140019056777694412516452475930088766292639904332989 200000000000000000000000000000000000000000000000000000000000; cq 27 40; cq 17137907992359491997111027670692543587116936735197945996863 50000000000000000000000000000000000000000000000000000000000; c0; cq 64777803637080686128244269047941844816945921135795607194539 250000000000000000000000000000000000000000000000000000000000; cq (-358278966717952089048961276721979397739750634673268802484271) 1000000000000000000000000000000000000000000000000000000000000; cq (-326859049815260331547031464863780953536212884913682779019) 312500000000000000000000000000000000000000000000000000000; cq 930327845415626983292300564432428777137601651182965794680397 1000000000000000000000000000000000000000000000000000000000000; cq 22243869928963512805767763349353056740784467905415973817 12500000000000000000000000000000000000000000000000000000; cq 1 10; cq (-282547569539044081612477785222287276408489375976211189952877) 1000000000000000000000000000000000000000000000000000000000000; cq (-159327350119972549169261984373485859278031542127551931461821) 1000000000000000000000000000000000000000000000000000000000000; cq (-145515894647001510860991961081084111308650130578626404945571) 1000000000000000000000000000000000000000000000000000000000000; cq (-64777803637080686128244269047941844816945921135795607194539) 250000000000000000000000000000000000000000000000000000000000; cq (-17137907992359491997111027670692543587116936735197945996863) 50000000000000000000000000000000000000000000000000000000000; cq (-27) 40]] |}.

(** get_rk12_coefficients, rk_coeffs.py:450-820 *)
Definition rk12_table : rk_table := {|
  tb_coeffs := [cq 47619047619047619047619047619047619047619047619047619047619 2000000000000000000000000000000000000000000000000000000000000; cq 3 128; cq 1 32; c0; cq 416666666666666666666666666666666666666666666666666666666667 10000000000000000000000000000000000000000000000000000000000000; c0; cq 1 20; cq 1 20; c0; cq 1 10; cq 357142857142857142857142857142857142857142857142857142857143 5000000000000000000000000000000000000000000000000000000000000; c0; cq 138413023680782974005350203145033146748813640089941234591267 1000000000000000000000000000000000000000000000000000000000000; cq 215872690604931311708935511140681138965472074195773051123019 1000000000000000000000000000000000000000000000000000000000000; cq 24380952380952380952380952380952380952380952380952380952381 100000000000000000000000000000000000000000000000000000000000; cq 215872690604931311708935511140681138965472074195773051123019 1000000000000000000000000000000000000000000000000000000000000; cq 138413023680782974005350203145033146748813640089941234591267 1000000000000000000000000000000000000000000000000000000000000; cq (-357142857142857142857142857142857142857142857142857142857143) 5000000000000000000000000000000000000000000000000000000000000; cq (-1) 10; cq (-1) 20; cq (-1) 20; cq (-416666666666666666666666666666666666666666666666666666666667) 10000000000000000000000000000000000000000000000000000000000000; cq (-1) 32; cq (-3) 128; cq 47619047619047619047619047619047619047619047619047619047619 2000000000000000000000000000000000000000000000000000000000000];
  tb_alphas := [c0; cq 1 5; cq 138888888888888888888888888888888888888888888888888888888889 250000000000000000000000000000000000000000000000000000000000; cq 833333333333333333333333333333333333333333333333333333333333 1000000000000000000000000000000000000000000000000000000000000; cq 333333333333333333333333333333333333333333333333333333333333 1000000000000000000000000000000000000000000000000000000000000; cq 1 1; cq 335917854585256906356122830501398785219476710284341275355111 500000000000000000000000000000000000000000000000000000000000; cq 144362470555310100967729244483512488454059299170903488234837 500000000000000000000000000000000000000000000000000000000000; cq 9 16; cq 833333333333333333333333333333333333333333333333333333333333 1000000000000000000000000000000000000000000000000000000000000; cq 473847715589599643781190081050918360824794662946370323229161 500000000000000000000000000000000000000000000000000000000000; cq 548112876863802643887753674810754475842153612931128785028369 10000000000000000000000000000000000000000000000000000000000000; cq 424440259303582675319919465081337151032074087820009771022967 5000000000000000000000000000000000000000000000000000000000000; cq 53115120652928578619622811809123367059440252832815524289733 200000000000000000000000000000000000000000000000000000000000; cq 1 2; cq 146884879347071421380377188190876632940559747167184475710267 200000000000000000000000000000000000000000000000000000000000; cq 915111948139283464936016106983732569793585182435998045795407 1000000000000000000000000000000000000000000000000000000000000; cq 473847715589599643781190081050918360824794662946370323229161 500000000000000000000000000000000000000000000000000000000000; cq 833333333333333333333333333333333333333333333333333333333333 1000000000000000000000000000000000000000000000000000000000000; cq 144362470555310100967729244483512488454059299170903488234837 500000000000000000000000000000000000000000000000000000000000; cq 335917854585256906356122830501398785219476710284341275355111 500000000000000000000000000000000000000000000000000000000000; cq 333333333333333333333333333333333333333333333333333333333333 1000000000000000000000000000000000000000000000000000000000000; cq 138888888888888888888888888888888888888888888888888888888889 250000000000000000000000000000000000000000000000000000000000; cq 1 5; cq 1 1];
  tb_betas := [
    [c0; c0; c0; c0; c0; c0; c0; c0; c0; c0; c0; c0; c0; c0; c0; c0; c0; c0; c0; c0; c0; c0; c0; c0];
    [cq 1 5; c0; c0; c0; c0; c0; c0; c0; c0; c0; c0; c0; c0; c0; c0; c0; c0; c0; c0; c0; c0; c0; c0; c0];
    [cq (-216049382716049382716049382716049382716049382716049382716049) 1000000000000000000000000000000000000000000000000000000000000; cq 154320987654320987654320987654320987654320987654320987654321 200000000000000000000000000000000000000000000000000000000000; c0; c0; c0; c0; c0; c0; c0; c0; c0; c0; c0; c0; c0; c0; c0; c0; c0; c0; c0; c0; c0; c0];
    [cq 208333333333333333333333333333333333333333333333333333333333 1000000000000000000000000000000000000000000000000000000000000; c0; cq 5 8; c0; c0; c0; c0; c0; c0; c0; c0; c0; c0; c0; c0; c0; c0; c0; c0; c0; c0; c0; c0; c0];
    [cq 193333333333333333333333333333333333333333333333333333333333 1000000000000000000000000000000000000000000000000000000000000; c0; cq 11 50; cq (-2) 25; c0; c0; c0; c0; c0; c0; c0; c0; c0; c0; c0; c0; c0; c0; c0; c0; c0; c0; c0; c0];
    [cq 1 10; c0; c0; cq 2 5; cq 1 2; c0; c0; c0; c0; c0; c0; c0; c0; c0; c0; c0; c0; c0; c0; c0; c0; c0; c0; c0];
    [cq 103364471650010477570395435690481791543342708330349879244197 1000000000000000000000000000000000000000000000000000000000000; c0; c0; cq 62026547264473380530790944618557664105537392477590149022037 500000000000000000000000000000000000000000000000000000000000; cq 24158558378051644964441824022598125436205462875864458865119 50000000000000000000000000000000000000000000000000000000000; cq (-38753024569476325208568144376762058039573330234136803880429) 1000000000000000000000000000000000000000000000000000000000000; c0; c0; c0; c0; c0; c0; c0; c0; c0; c0; c0; c0; c0; c0; c0; c0; c0; c0];
    [cq 193809783487239568877975915594023700218788547966615019207 1562500000000000000000000000000000000000000000000000000000; c0; c0; c0; cq 217050632197958486317846256953159942875916353757734167684657 1000000000000000000000000000000000000000000000000000000000000; cq 68727896037983379906453900917524095297221995469704265421459 5000000000000000000000000000000000000000000000000000000000000; cq (-330547658633841422227915670749074765836334126042508282958773) 5000000000000000000000000000000000000000000000000000000000000; c0; c0; c0; c0; c0; c0; c0; c0; c0; c0; c0; c0; c0; c0; c0; c0; c0];
    [cq 457387447428441491572495923490216098544416049988330050045243 5000000000000000000000000000000000000000000000000000000000000; c0; c0; c0; c0; cq (-272174261858734844982877472072419305673078436923504589034159) 50000000000000000000000000000000000000000000000000000000000000; cq 42544800105528344911157195055943991444546983172424648262747 625000000000000000000000000000000000000000000000000000000000; cq 408394315582641046727306852653894780093303185664924644551239 1000000000000000000000000000000000000000000000000000000000000; c0; c0; c0; c0; c0; c0; c0; c0; c0; c0; c0; c0; c0; c0; c0; c0];
    [cq 890013652502551018954509355423841780143232697403434118692699 10000000000000000000000000000000000000000000000000000000000000; c0; c0; c0; c0; cq 49952822664553236019779340842069280040589114940681409195581 10000000000000000000000000000000000000000000000000000000000000; cq 6217472481559828083464681296896049313803672827053515169161 15625000000000000000000000000000000000000000000000000000000; cq 427930210752576611068192608300897981558240730580396406312359 1000000000000000000000000000000000000000000000000000000000000; cq (-173023527511565401148055495191005820653449278825799193188317) 2000000000000000000000000000000000000000000000000000000000000; c0; c0; c0; c0; c0; c0; c0; c0; c0; c0; c0; c0; c0; c0; c0];
    [cq 347543812067453771556346953204904911353010530842772307627879 5000000000000000000000000000000000000000000000000000000000000; c0; c0; c0; c0; cq 129146941900176461970759579482746551122871751501482634045487 1000000000000000000000000000000000000000000000000000000000000; cq 153073638102311295076342566143214939031177504112433874313011 100000000000000000000000000000000000000000000000000000000000; cq 144468690282285013136687837363644178833723025104642970679509 250000000000000000000000000000000000000000000000000000000000; cq (-951294772321088980532340837388859453930924498799228648050949) 1000000000000000000000000000000000000000000000000000000000000; cq (-204138321482815975748742490759878731729813587260489213454967) 500000000000000000000000000000000000000000000000000000000000; c0; c0; c0; c0; c0; c0; c0; c0; c0; c0; c0; c0; c0; c0];
    [cq 444861403295135866269453507092463581620165501018684152933313 10000000000000000000000000000000000000000000000000000000000000; c0; c0; c0; c0; cq (-95119216764240432996058171643636800754082890906714016429491) 25000000000000000000000000000000000000000000000000000000000000; cq 26738766007406050180315650702264788617301519411239349898493 2500000000000000000000000000000000000000000000000000000000000; cq 52404061124976083324168551482229980201683662665009974518663 2500000000000000000000000000000000000000000000000000000000000; cq (-233146023259321786648561431551978077665337818756053603898847) 10000000000000000000000000000000000000000000000000000000000000; cq 65816495266134243592483684081333690293743820221851431252741 25000000000000000000000000000000000000000000000000000000000000; cq 315472768977025060103545855572111407955208306374459723959783 100000000000000000000000000000000000000000000000000000000000000; c0; c0; c0; c0; c0; c0; c0; c0; c0; c0; c0; c0; c0];
    [cq 38917763023951095117760219305063552248414752403254637246243 2000000000000000000000000000000000000000000000000000000000000; c0; c0; c0; c0; c0; c0; c0; cq 339256474585906254653060826726183738097182390629582666160767 5000000000000000000000000000000000000000000000000000000000000000; cq (-8595917180985472465420106604603246871377267754497672073511) 200000000000000000000000000000000000000000000000000000000000000; cq 176358982260285155407485928953302139937553442829975734148981 10000000000000000000000000000000000000000000000000000000000000000; cq 163466656853756762752398807846295258387377839696845524587981 2500000000000000000000000000000000000000000000000000000000000; c0; c0; c0; c0; c0; c0; c0; c0; c0; c0; c0; c0];
    [cq 206836835664277105916828174798272361078909196043446411598231 1000000000000000000000000000000000000000000000000000000000000; c0; c0; c0; c0; c0; c0; c0; cq 83398033552078236414022933332348225153163252547396252607757 5000000000000000000000000000000000000000000000000000000000000; cq (-879501563200710214457024178249986591130234990219959208704979) 100000000000000000000000000000000000000000000000000000000000000; cq 346675455362463910824462315246379209427513654098596403637231 100000000000000000000000000000000000000000000000000000000000000; cq (-34450578404228707126457302490334049681210819958675648071969) 40000000000000000000000000000000000000000000000000000000000; cq 181730376414810056219247895693852429006991425987851357835757 200000000000000000000000000000000000000000000000000000000000; c0; c0; c0; c0; c0; c0; c0; c0; c0; c0; c0];
    [cq 101963042327242005045755657338462843019252224781206502281191 5000000000000000000000000000000000000000000000000000000000000; c0; c0; c0; c0; c0; c0; c0; cq 869469392016685948675400555583947505833954460930940959577347 10000000000000000000000000000000000000000000000000000000000000; cq (-191649630410149842286436611791405053287170076602337673587681) 10000000000000000000000000000000000000000000000000000000000000; cq 327814579746831643682435786622122258017414377626873012049419 50000000000000000000000000000000000000000000000000000000000000; cq 493738064063717390451899264337016949869462484003316100722731 5000000000000000000000000000000000000000000000000000000000000; cq 535364695524996055083260173615567408717110247274021056118319 100000000000000000000000000000000000000000000000000000000000000; cq 301167864010967916837091303817051676920059229784957479998077 1000000000000000000000000000000000000000000000000000000000000; c0; c0; c0; c0; c0; c0; c0; c0; c0; c0];
    [cq 228410433917778099547115412893004398779136994596948545722283 1000000000000000000000000000000000000000000000000000000000000; c0; c0; c0; c0; c0; c0; c0; cq (-249353700396512625317508283721255756069301885479841146191521) 500000000000000000000000000000000000000000000000000000000000; cq 134841168335724478552596703792570104791700727205981058201689 1000000000000000000000000000000000000000000000000000000000000; cq (-9686456101395853960997605673100730773379026478570170141859) 250000000000000000000000000000000000000000000000000000000000; cq (-127473257473474844240388430824908952380979292713250350199641) 100000000000000000000000000000000000000000000000000000000000; cq 35979091115719291300296113109259520468824825894477959907631 25000000000000000000000000000000000000000000000000000000000; cq (-107003733983995127109751770413674784819514046172406397749513) 500000000000000000000000000000000000000000000000000000000000; cq 958202417754430239892724139109781371059908874605153648768037 1000000000000000000000000000000000000000000000000000000000000; c0; c0; c0; c0; c0; c0; c0; c0; c0];
    [cq 100111238827987101807124823006253373560720153112855860604899 50000000000000000000000000000000000000000000000000000000000; c0; c0; c0; c0; c0; c0; c0; cq 41340361992304982418390931287627719165082371934668320135911 20000000000000000000000000000000000000000000000000000000000; cq 31198906804306977097873563991574723307764615808351054033157 50000000000000000000000000000000000000000000000000000000000; cq (-462283685500311430283203554129062069391947101880112723185773) 10000000000000000000000000000000000000000000000000000000000000; cq (-88497328836264961486007524672711894928660483545709270109463) 10000000000000000000000000000000000000000000000000000000000; cq 154851541570171195245487445158367117912037718157007439486723 20000000000000000000000000000000000000000000000000000000000; cq (-147089629812717302748338328531927936411031470532735300724109) 250000000000000000000000000000000000000000000000000000000000; cq (-110683733362380649395704708016953056176195769617014899442903) 100000000000000000000000000000000000000000000000000000000000; cq (-464764518789601999889198619145616607110394028755949873753537) 500000000000000000000000000000000000000000000000000000000000; c0; c0; c0; c0; c0; c0; c0; c0];
    [cq 31378953341207344293445160898988879680816125933032210026831 10000000000000000000000000000000000000000000000000000000000; c0; c0; c0; c0; cq 129146941900176461970759579482746551122871751501482634045487 1000000000000000000000000000000000000000000000000000000000000; cq 153073638102311295076342566143214939031177504112433874313011 100000000000000000000000000000000000000000000000000000000000; cq 144468690282285013136687837363644178833723025104642970679509 250000000000000000000000000000000000000000000000000000000000; cq 542088263055126683050056840891857421941300558851862156403363 100000000000000000000000000000000000000000000000000000000000; cq 28943365754353663109082975109705457613110022604493211729617 125000000000000000000000000000000000000000000000000000000000; cq 379646497789456780081150655892625936780900671166597447646029 5000000000000000000000000000000000000000000000000000000000000; cq (-123729973380186513287414553402595806591349822617535905976253) 10000000000000000000000000000000000000000000000000000000000; cq 197091176692953908787191441863473840416073553144355420381391 20000000000000000000000000000000000000000000000000000000000; cq 42955571568521826478967885452618388644499024756116480057977 500000000000000000000000000000000000000000000000000000000000; cq (-565242752862643921117182090081762761180392602644189218673969) 100000000000000000000000000000000000000000000000000000000000; cq (-194300935242819610883833776782364287728724899124166920477873) 100000000000000000000000000000000000000000000000000000000000; cq (-128352601849404542018428714319344620742146491335612353559923) 1000000000000000000000000000000000000000000000000000000000000; c0; c0; c0; c0; c0; c0; c0];
    [cq 34590013608049003719634529574541929206290817122480629998891 25000000000000000000000000000000000000000000000000000000000; c0; c0; c0; c0; cq 49952822664553236019779340842069280040589114940681409195581 10000000000000000000000000000000000000000000000000000000000000; cq 6217472481559828083464681296896049313803672827053515169161 15625000000000000000000000000000000000000000000000000000000; cq 427930210752576611068192608300897981558240730580396406312359 1000000000000000000000000000000000000000000000000000000000000; cq (-65149553712237885458275719561523786671035737999199822991073) 50000000000000000000000000000000000000000000000000000000000; cq 661292278669377029097112528107513072734573412294008071500699 1000000000000000000000000000000000000000000000000000000000000; cq (-28911954861390869953193878737740692780117164488309131106029) 200000000000000000000000000000000000000000000000000000000000; cq (-696576034731798203467853867461083919356792248105919255460819) 100000000000000000000000000000000000000000000000000000000000; cq 665808543235991748353408295542210450632193197576935120716437 100000000000000000000000000000000000000000000000000000000000; cq (-41749343777210371601173951431377711262451992299809056893949) 25000000000000000000000000000000000000000000000000000000000; cq 206413702318035263832289040301832647130604651223986452170089 100000000000000000000000000000000000000000000000000000000000; cq (-168685990661076617965739532392709430798019968999601264662223) 250000000000000000000000000000000000000000000000000000000000; cq (-115618834794939500490703608435907610059605754935305582045729) 100000000000000000000000000000000000000000000000000000000000000; cq (-544057908677007389319819914241631024660726585015012485938593) 100000000000000000000000000000000000000000000000000000000000000; c0; c0; c0; c0; c0; c0];
    [cq 475618148524143834737318987947486776083451689491737712879113 500000000000000000000000000000000000000000000000000000000000; c0; c0; c0; cq 217050632197958486317846256953159942875916353757734167684657 1000000000000000000000000000000000000000000000000000000000000; cq 68727896037983379906453900917524095297221995469704265421459 5000000000000000000000000000000000000000000000000000000000000; cq (-330547658633841422227915670749074765836334126042508282958773) 5000000000000000000000000000000000000000000000000000000000000; c0; cq 152281696736414447136604697040747131921486432699422112099617 1000000000000000000000000000000000000000000000000000000000000; cq (-1055440682367499502507189978543743763608260701429811461469) 3125000000000000000000000000000000000000000000000000000000; cq (-192825981633995781534949199286824400469353110630787982121133) 10000000000000000000000000000000000000000000000000000000000000; cq (-184129634848433404966204507767749801788156060373444440100941) 50000000000000000000000000000000000000000000000000000000000; cq 19762366900436378971345845526230240876147005021430437645707 6250000000000000000000000000000000000000000000000000000000; cq (-185231261053442645358495928011025562738971741142040284588693) 500000000000000000000000000000000000000000000000000000000000; cq (-257487100182720217498217228349063992470584308237158435510157) 5000000000000000000000000000000000000000000000000000000000000; cq (-414812766060076473393521770896424208329691337601360338768277) 500000000000000000000000000000000000000000000000000000000000000; cq 279801041419278598986586589070027583961355402640879503213503 100000000000000000000000000000000000000000000000000000000000000000; cq 104650979103090071992460255194197115448529860172339044735563 2500000000000000000000000000000000000000000000000000000000000; cq 139542127545438677957830437277689824983141083780063134645111 500000000000000000000000000000000000000000000000000000000000; c0; c0; c0; c0; c0];
    [cq 103364471650010477570395435690481791543342708330349879244197 1000000000000000000000000000000000000000000000000000000000000; c0; c0; cq 62026547264473380530790944618557664105537392477590149022037 500000000000000000000000000000000000000000000000000000000000; cq 24158558378051644964441824022598125436205462875864458865119 50000000000000000000000000000000000000000000000000000000000; cq (-38753024569476325208568144376762058039573330234136803880429) 1000000000000000000000000000000000000000000000000000000000000; c0; cq (-438313820361122420391059788940960176420682836652600698580091) 1000000000000000000000000000000000000000000000000000000000000; c0; cq (-109318316860838323842555742508575599681254686849144165296743) 500000000000000000000000000000000000000000000000000000000000; cq (-62466952878943845996326999041288069953234951925315624464603) 2000000000000000000000000000000000000000000000000000000000000; c0; c0; c0; c0; c0; c0; cq 62466952878943845996326999041288069953234951925315624464603 2000000000000000000000000000000000000000000000000000000000000; cq 109318316860838323842555742508575599681254686849144165296743 500000000000000000000000000000000000000000000000000000000000; cq 438313820361122420391059788940960176420682836652600698580091 1000000000000000000000000000000000000000000000000000000000000; c0; c0; c0; c0];
    [cq 193333333333333333333333333333333333333333333333333333333333 1000000000000000000000000000000000000000000000000000000000000; c0; cq 11 50; cq (-2) 25; c0; c0; cq 984256130499315928152900286856048243348202521491288575952143 10000000000000000000000000000000000000000000000000000000000000; cq (-196410889223054653446526504390100417677539095340135532418849) 1000000000000000000000000000000000000000000000000000000000000; c0; cq 436457930493068729391826122587949137609670676712525034763317 1000000000000000000000000000000000000000000000000000000000000; cq 65261372167572109856037093980555569835054381070841471673027 1000000000000000000000000000000000000000000000000000000000000; c0; c0; c0; c0; c0; c0; cq (-65261372167572109856037093980555569835054381070841471673027) 1000000000000000000000000000000000000000000000000000000000000; cq (-436457930493068729391826122587949137609670676712525034763317) 1000000000000000000000000000000000000000000000000000000000000; cq 196410889223054653446526504390100417677539095340135532418849 1000000000000000000000000000000000000000000000000000000000000; cq (-984256130499315928152900286856048243348202521491288575952143) 10000000000000000000000000000000000000000000000000000000000000; c0; c0; c0];
    [cq (-216049382716049382716049382716049382716049382716049382716049) 1000000000000000000000000000000000000000000000000000000000000; cq 154320987654320987654320987654320987654320987654320987654321 200000000000000000000000000000000000000000000000000000000000; c0; c0; cq (-666666666666666666666666666666666666666666666666666666666667) 1000000000000000000000000000000000000000000000000000000000000; c0; cq (-390696469295978451446999802258495981249099665294395945559163) 1000000000000000000000000000000000000000000000000000000000000; c0; c0; c0; c0; c0; c0; c0; c0; c0; c0; c0; c0; c0; cq 390696469295978451446999802258495981249099665294395945559163 1000000000000000000000000000000000000000000000000000000000000; cq 666666666666666666666666666666666666666666666666666666666667 1000000000000000000000000000000000000000000000000000000000000; c0; c0];
    [cq 1 5; c0; cq (-164609053497942386831275720164609053497942386831275720164609) 1000000000000000000000000000000000000000000000000000000000000; c0; c0; c0; c0; c0; c0; c0; c0; c0; c0; c0; c0; c0; c0; c0; c0; c0; c0; c0; cq 164609053497942386831275720164609053497942386831275720164609 1000000000000000000000000000000000000000000000000000000000000; c0];
    [cq 36794681220277602113237387747255902823383828879642922984849 25000000000000000000000000000000000000000000000000000000000; cq 63 80; cq 52662037037037037037037037037037037037037037037037037037037 125000000000000000000000000000000000000000000000000000000000; c0; cq 291666666666666666666666666666666666666666666666666666666667 1000000000000000000000000000000000000000000000000000000000000; c0; cq 348600717628329563206854421629657569274689947367847465753757 1000000000000000000000000000000000000000000000000000000000000; cq 22949954476899484958289023371055544707382356966650670066251 100000000000000000000000000000000000000000000000000000000000; cq 72380810723810247394978997272125433887284938254590301416649 12500000000000000000000000000000000000000000000000000000000; cq 26161719491031679304629609964162262951653840475265509442501 62500000000000000000000000000000000000000000000000000000000; cq 307039880222474002649653817490106690389251482313213999386651 1000000000000000000000000000000000000000000000000000000000000; cq (-468700905350603332214256344683853248065574415794742040470287) 100000000000000000000000000000000000000000000000000000000000; cq 78392916398450565538009538099968464138598859049990728857269 25000000000000000000000000000000000000000000000000000000000; cq 70067414855482860408755253137810220527922508656965254174449 50000000000000000000000000000000000000000000000000000000000; cq (-55293110143949902362901030600576433642127605577765815640091) 10000000000000000000000000000000000000000000000000000000000; cq (-426569117754031674654773447487392453094463754019776259778749) 500000000000000000000000000000000000000000000000000000000000; cq 103575780373610140411804607167772795518293914458500175573749 1000000000000000000000000000000000000000000000000000000000000; cq (-70237208475300470571273450601066267435332961850017478598273) 500000000000000000000000000000000000000000000000000000000000; cq (-26161719491031679304629609964162262951653840475265509442501) 62500000000000000000000000000000000000000000000000000000000; cq (-22949954476899484958289023371055544707382356966650670066251) 100000000000000000000000000000000000000000000000000000000000; cq (-348600717628329563206854421629657569274689947367847465753757) 1000000000000000000000000000000000000000000000000000000000000; cq (-291666666666666666666666666666666666666666666666666666666667) 1000000000000000000000000000000000000000000000000000000000000; cq (-52662037037037037037037037037037037037037037037037037037037) 125000000000000000000000000000000000000000000000000000000000; cq (-63) 80]] |}.

(** get_rk14_coefficients, rk_coeffs.py:821-1503 *)
Definition rk14_table : rk_table := {|
  tb_coeffs := [cq 178571428571428571428571428571428571428571428571428571428571 10000000000000000000000000000000000000000000000000000000000000; cq 3 512; cq 3 256; c0; cq 9 512; c0; cq 3 128; cq 15 512; c0; cq 9 256; cq 21 512; cq 3 64; c0; cq 27 512; cq 15 256; cq 33 512; c0; cq 10535211357175301969149603288787816222767308308052388404167 100000000000000000000000000000000000000000000000000000000000; cq 170561346241752182382120338553874085887555487802790804737501 1000000000000000000000000000000000000000000000000000000000000; cq 51557349332337985195881621425276223685478571564885613519493 250000000000000000000000000000000000000000000000000000000000; cq 51557349332337985195881621425276223685478571564885613519493 250000000000000000000000000000000000000000000000000000000000; cq 170561346241752182382120338553874085887555487802790804737501 1000000000000000000000000000000000000000000000000000000000000; cq 10535211357175301969149603288787816222767308308052388404167 100000000000000000000000000000000000000000000000000000000000; cq (-33) 512; cq (-15) 256; cq (-27) 512; cq (-3) 64; cq (-21) 512; cq (-9) 256; cq (-15) 512; cq (-3) 128; cq (-9) 512; cq (-3) 256; cq (-3) 512; cq 178571428571428571428571428571428571428571428571428571428571 10000000000000000000000000000000000000000000000000000000000000];
  tb_alphas := [c0; cq 111111111111111111111111111111111111111111111111111111111111 1000000000000000000000000000000000000000000000000000000000000; cq 138888888888888888888888888888888888888888888888888888888889 250000000000000000000000000000000000000000000000000000000000; cq 833333333333333333333333333333333333333333333333333333333333 1000000000000000000000000000000000000000000000000000000000000; cq 333333333333333333333333333333333333333333333333333333333333 1000000000000000000000000000000000000000000000000000000000000; cq 1 1; cq 334993489636386460882341892752999256969422614819230176642571 500000000000000000000000000000000000000000000000000000000000; cq 9283387006681823668424522400256856663229127959341115230599 31250000000000000000000000000000000000000000000000000000000; cq 727272727272727272727272727272727272727272727272727272727273 1000000000000000000000000000000000000000000000000000000000000; cq 140152799042188765276187487966946717629806463082532936287323 1000000000000000000000000000000000000000000000000000000000000; cq 350350519885075368575549927415374668970703524632773204484611 500000000000000000000000000000000000000000000000000000000000; cq 90909090909090909090909090909090909090909090909090909090909 250000000000000000000000000000000000000000000000000000000000; cq 131578947368421052631578947368421052631578947368421052631579 500000000000000000000000000000000000000000000000000000000000; cq 392172246650270859125196642501208648863714315266128052078483 10000000000000000000000000000000000000000000000000000000000000; cq 101614687866047095372924144909754563273701546577154818846789 125000000000000000000000000000000000000000000000000000000000; cq 166666666666666666666666666666666666666666666666666666666667 1000000000000000000000000000000000000000000000000000000000000; cq 9 10; cq 160324814362991730828192798474170702370274162903770806350731 2500000000000000000000000000000000000000000000000000000000000; cq 20414990928342884892774463430102340502714950524133375162887 100000000000000000000000000000000000000000000000000000000000; cq 395350391048760565615671369827324372352227297456659450554577 1000000000000000000000000000000000000000000000000000000000000; cq 604649608951239434384328630172675627647772702543340549445423 1000000000000000000000000000000000000000000000000000000000000; cq 79585009071657115107225536569897659497285049475866624837113 100000000000000000000000000000000000000000000000000000000000; cq 233967518563700826917180720152582929762972583709622919364927 250000000000000000000000000000000000000000000000000000000000; cq 166666666666666666666666666666666666666666666666666666666667 1000000000000000000000000000000000000000000000000000000000000; cq 101614687866047095372924144909754563273701546577154818846789 125000000000000000000000000000000000000000000000000000000000; cq 392172246650270859125196642501208648863714315266128052078483 10000000000000000000000000000000000000000000000000000000000000; cq 90909090909090909090909090909090909090909090909090909090909 250000000000000000000000000000000000000000000000000000000000; cq 350350519885075368575549927415374668970703524632773204484611 500000000000000000000000000000000000000000000000000000000000; cq 140152799042188765276187487966946717629806463082532936287323 1000000000000000000000000000000000000000000000000000000000000; cq 9283387006681823668424522400256856663229127959341115230599 31250000000000000000000000000000000000000000000000000000000; cq 334993489636386460882341892752999256969422614819230176642571 500000000000000000000000000000000000000000000000000000000000; cq 333333333333333333333333333333333333333333333333333333333333 1000000000000000000000000000000000000000000000000000000000000; cq 138888888888888888888888888888888888888888888888888888888889 250000000000000000000000000000000000000000000000000000000000; cq 111111111111111111111111111111111111111111111111111111111111 1000000000000000000000000000000000000000000000000000000000000; cq 1 1];
  tb_betas := [
    [c0; c0; c0; c0; c0; c0; c0; c0; c0; c0; c0; c0; c0; c0; c0; c0; c0; c0; c0; c0; c0; c0; c0; c0; c0; c0; c0; c0; c0; c0; c0; c0; c0; c0];
    [cq 111111111111111111111111111111111111111111111111111111111111 1000000000000000000000000000000000000000000000000000000000000; c0; c0; c0; c0; c0; c0; c0; c0; c0; c0; c0; c0; c0; c0; c0; c0; c0; c0; c0; c0; c0; c0; c0; c0; c0; c0; c0; c0; c0; c0; c0; c0; c0];
    [cq (-833333333333333333333333333333333333333333333333333333333333) 1000000000000000000000000000000000000000000000000000000000000; cq 138888888888888888888888888888888888888888888888888888888889 100000000000000000000000000000000000000000000000000000000000; c0; c0; c0; c0; c0; c0; c0; c0; c0; c0; c0; c0; c0; c0; c0; c0; c0; c0; c0; c0; c0; c0; c0; c0; c0; c0; c0; c0; c0; c0; c0; c0];
    [cq 208333333333333333333333333333333333333333333333333333333333 1000000000000000000000000000000000000000000000000000000000000; c0; cq 5 8; c0; c0; c0; c0; c0; c0; c0; c0; c0; c0; c0; c0; c0; c0; c0; c0; c0; c0; c0; c0; c0; c0; c0; c0; c0; c0; c0; c0; c0; c0; c0];
    [cq 193333333333333333333333333333333333333333333333333333333333 1000000000000000000000000000000000000000000000000000000000000; c0; cq 11 50; cq (-2) 25; c0; c0; c0; c0; c0; c0; c0; c0; c0; c0; c0; c0; c0; c0; c0; c0; c0; c0; c0; c0; c0; c0; c0; c0; c0; c0; c0; c0; c0; c0];
    [cq 1 10; c0; c0; cq 2 5; cq 1 2; c0; c0; c0; c0; c0; c0; c0; c0; c0; c0; c0; c0; c0; c0; c0; c0; c0; c0; c0; c0; c0; c0; c0; c0; c0; c0; c0; c0; c0];
    [cq 103484561636679776672993546511910344499744798201971316606663 1000000000000000000000000000000000000000000000000000000000000; c0; c0; cq 4882755492256288903585763314758483085583708593366485389651 40000000000000000000000000000000000000000000000000000000000; cq 241287245165623311237567390062844056432959511925084024839701 500000000000000000000000000000000000000000000000000000000000; cq (-38140960001560699973088624000562020566411307247841147742197) 1000000000000000000000000000000000000000000000000000000000000; c0; c0; c0; c0; c0; c0; c0; c0; c0; c0; c0; c0; c0; c0; c0; c0; c0; c0; c0; c0; c0; c0; c0; c0; c0; c0; c0; c0];
    [cq 124380526654094412881516420868799316268491466359671423163289 1000000000000000000000000000000000000000000000000000000000000; c0; c0; c0; cq 45224056439516860284447732595840580239350464148526628793029 200000000000000000000000000000000000000000000000000000000000; cq 137885887618080880607695837016477814530969417491493385363543 10000000000000000000000000000000000000000000000000000000000000; cq (-3361050669983422248746997537071529284750431707626910914281) 50000000000000000000000000000000000000000000000000000000000; c0; c0; c0; c0; c0; c0; c0; c0; c0; c0; c0; c0; c0; c0; c0; c0; c0; c0; c0; c0; c0; c0; c0; c0; c0; c0; c0];
    [cq 936919065659673815530885456083005933866349695217750085655603 10000000000000000000000000000000000000000000000000000000000000; c0; c0; c0; c0; cq (-613406843450510987229498995641664735620914507128858871007099) 100000000000000000000000000000000000000000000000000000000000000; cq 54004956406375765927215024414966643372744858319529330047167 250000000000000000000000000000000000000000000000000000000000; cq 105923765878940484334404768490244188301466867386030883170779 250000000000000000000000000000000000000000000000000000000000; c0; c0; c0; c0; c0; c0; c0; c0; c0; c0; c0; c0; c0; c0; c0; c0; c0; c0; c0; c0; c0; c0; c0; c0; c0; c0];
    [cq 167695962481810532923393758274562817196106627844982226213867 2000000000000000000000000000000000000000000000000000000000000; c0; c0; c0; c0; cq (-117949367100973814319755056031295775367961960590736150777613) 10000000000000000000000000000000000000000000000000000000000000; cq (-123649510284406326169736919371597299162996420176670066348749) 500000000000000000000000000000000000000000000000000000000000; cq 978080858367729012259313014081291665503740655476733940756599 10000000000000000000000000000000000000000000000000000000000000; cq 217590689243420631360008651767860318344168120024782176879989 1000000000000000000000000000000000000000000000000000000000000; c0; c0; c0; c0; c0; c0; c0; c0; c0; c0; c0; c0; c0; c0; c0; c0; c0; c0; c0; c0; c0; c0; c0; c0; c0];
    [cq 30762767988471411397728119480715735716671198453241055372697 500000000000000000000000000000000000000000000000000000000000; c0; c0; c0; c0; cq 59223278032450330804299000579804652473838956044425713683499 10000000000000000000000000000000000000000000000000000000000000; cq 14697692498870034756788259475184191045480079085815900781589 31250000000000000000000000000000000000000000000000000000000; cq 149844431924339500426990918548096199568415560835890639592097 500000000000000000000000000000000000000000000000000000000000; cq (-247656877593994914689992276329810825853958069263947095548189) 1000000000000000000000000000000000000000000000000000000000000; cq 887160238171501463151998814712493716179561388805429745669 8000000000000000000000000000000000000000000000000000000000; c0; c0; c0; c0; c0; c0; c0; c0; c0; c0; c0; c0; c0; c0; c0; c0; c0; c0; c0; c0; c0; c0; c0; c0];
    [cq 209850036681391289930896432393638893606741828271552305622997 5000000000000000000000000000000000000000000000000000000000000; c0; c0; c0; c0; cq (-158993848133102546950956423846356203994304584851551976102817) 50000000000000000000000000000000000000000000000000000000000000; cq 201599428726548019315205427880094876598385777891854937529937 250000000000000000000000000000000000000000000000000000000000; cq 975983126412388979093522850684288851314672048003054550357187 10000000000000000000000000000000000000000000000000000000000000; cq 778575578158398909027512446452927238999763460594181964958853 1000000000000000000000000000000000000000000000000000000000000; cq 204890423831599428189499202098105603312029235081420653574829 1000000000000000000000000000000000000000000000000000000000000; cq (-78130789813734094153535471975263912605731446118212180446403) 50000000000000000000000000000000000000000000000000000000000; c0; c0; c0; c0; c0; c0; c0; c0; c0; c0; c0; c0; c0; c0; c0; c0; c0; c0; c0; c0; c0; c0; c0];
    [cq 437726782233730163574465242495339811688214967071614123256973 10000000000000000000000000000000000000000000000000000000000000; c0; c0; c0; c0; c0; c0; c0; cq 499492022016156167035486902864746900225304973522476733761 80000000000000000000000000000000000000000000000000000000000; cq 3125673392337145546788049460463247762954159878410390150137 15625000000000000000000000000000000000000000000000000000000; cq (-402664183902491518411928581024451455961696443668514657422103) 50000000000000000000000000000000000000000000000000000000000000; cq 211517528067396521915711903523399601316877825157550573051221 10000000000000000000000000000000000000000000000000000000000000; c0; c0; c0; c0; c0; c0; c0; c0; c0; c0; c0; c0; c0; c0; c0; c0; c0; c0; c0; c0; c0; c0];
    [cq 56699850072702912619004718384143462449427530979295419553699 2000000000000000000000000000000000000000000000000000000000000; c0; c0; c0; c0; c0; c0; c0; cq 124581602427908703769474574402997574729942326792708840049111 50000000000000000000000000000000000000000000000000000000000000; cq 115069393927296574819199923186871384386043561319071117111829 5000000000000000000000000000000000000000000000000000000000000; cq (-80538989173244274681119023116780219547365901190155115260827) 25000000000000000000000000000000000000000000000000000000000000; cq 988442549447664668946335414487885256040819982786014648129297 100000000000000000000000000000000000000000000000000000000000000; cq (-53252692832221837846076910718981846221658641357393116658023) 2500000000000000000000000000000000000000000000000000000000000; c0; c0; c0; c0; c0; c0; c0; c0; c0; c0; c0; c0; c0; c0; c0; c0; c0; c0; c0; c0; c0];
    [cq 171755947145121500524716117367573971541676587490350713134061 500000000000000000000000000000000000000000000000000000000000; c0; c0; c0; c0; c0; c0; c0; cq 105225956011813692804548505999505327894403702612813350020441 500000000000000000000000000000000000000000000000000000000000; cq 103427452057230411936482926828825709938667999698324740166559 100000000000000000000000000000000000000000000000000000000000; cq 300151822932211243525620224103320287469539046203078472784153 50000000000000000000000000000000000000000000000000000000000000; cq 855938125099619537578012106002407728915062652616416005816477 1000000000000000000000000000000000000000000000000000000000000; cq (-488617502518383405436132426186262816506553828446419838848011) 500000000000000000000000000000000000000000000000000000000000; cq (-660026980479294694616225013856327693720573981219974874776419) 1000000000000000000000000000000000000000000000000000000000000; c0; c0; c0; c0; c0; c0; c0; c0; c0; c0; c0; c0; c0; c0; c0; c0; c0; c0; c0; c0];
    [cq (-143574001672168069538206399935076366657755954378399880691949) 10000000000000000000000000000000000000000000000000000000000000; c0; c0; c0; c0; c0; c0; c0; cq (-73250654009807994058737159369794958346623816346710441463657) 2000000000000000000000000000000000000000000000000000000000000; cq 87563743909053420494212351744961631086697270617775893730037 2500000000000000000000000000000000000000000000000000000000000; cq 360946016362113508931786658758335239823689929864237671348749 10000000000000000000000000000000000000000000000000000000000000; cq (-265219967553681106351595946834601923649627012457464284442911) 10000000000000000000000000000000000000000000000000000000000000; cq 55712376413212264954863942188604988513042040385278346363801 1250000000000000000000000000000000000000000000000000000000000; cq 124343093331358243286225595741786448038973408895106741855721 1000000000000000000000000000000000000000000000000000000000000; cq 413829693239480694403512496204335960426192908674476033832967 100000000000000000000000000000000000000000000000000000000000000; c0; c0; c0; c0; c0; c0; c0; c0; c0; c0; c0; c0; c0; c0; c0; c0; c0; c0; c0];
    [cq 178016202212560145487804558199044588132053111189874401327411 500000000000000000000000000000000000000000000000000000000000; c0; c0; c0; c0; c0; c0; c0; cq (-450192758947562595966821779075956175110645100214763601190349) 1000000000000000000000000000000000000000000000000000000000000; cq 215263953541855449313328146404391458896515077047354731438573 500000000000000000000000000000000000000000000000000000000000; cq 127993257252755559417139240098517923019281446757662846597493 250000000000000000000000000000000000000000000000000000000000; cq 227075909721601065097539781159527553499374053704976157636649 250000000000000000000000000000000000000000000000000000000000; cq (-3098027334298348293934311728788350721360347231215143154663) 2500000000000000000000000000000000000000000000000000000000; cq (-162262165417940366285418087219765638476350707991797774414167) 250000000000000000000000000000000000000000000000000000000000; cq 125854452293409646105240264974485270702443926465723745609709 500000000000000000000000000000000000000000000000000000000000; cq 779906470345586398810756795282334476023540593411550187024263 1000000000000000000000000000000000000000000000000000000000000; c0; c0; c0; c0; c0; c0; c0; c0; c0; c0; c0; c0; c0; c0; c0; c0; c0; c0];
    [cq 32733921851628266601720301604708745031867609553298121961239 2500000000000000000000000000000000000000000000000000000000000; c0; c0; c0; c0; c0; c0; c0; c0; c0; c0; c0; cq (-466026533992556972954230981383554118929315754842333571062413) 5000000000000000000000000000000000000000000000000000000000000000; cq 252687167131149679820045221569295363385471172358061190851373 5000000000000000000000000000000000000000000000000000000000000; cq 32178813677779519164383164384407911905652474757234614441959 40000000000000000000000000000000000000000000000000000000000000000; cq 73965753686771398816094467847214657480542621490540191022281 125000000000000000000000000000000000000000000000000000000000000; cq (-401614722154557337064691684906375587732264247950093804676867) 1000000000000000000000000000000000000000000000000000000000000000000; c0; c0; c0; c0; c0; c0; c0; c0; c0; c0; c0; c0; c0; c0; c0; c0; c0];
    [cq 103963242233026506270972272000382826083627603072186703989879 5000000000000000000000000000000000000000000000000000000000000; c0; c0; c0; c0; c0; c0; c0; c0; c0; c0; c0; cq 23307836752003436604076107913491364358056244121194862804123 40000000000000000000000000000000000000000000000000000000000000; cq (-801700732358815939083342186525852746640558465919633524655451) 100000000000000000000000000000000000000000000000000000000000000; cq 50480955480892117546896352717945071310514661291361938327371 12500000000000000000000000000000000000000000000000000000000000000; cq 854609998055506144225056114567535602510114622033622491802597 10000000000000000000000000000000000000000000000000000000000000; cq (-12780405058487765169169223105687769244027677347042341014553) 6250000000000000000000000000000000000000000000000000000000000000; cq 52664289412215946699899701489546998677120452117586421573291 500000000000000000000000000000000000000000000000000000000000; c0; c0; c0; c0; c0; c0; c0; c0; c0; c0; c0; c0; c0; c0; c0; c0];
    [cq 140153449795736021415446247355771306718486452917597731683689 100000000000000000000000000000000000000000000000000000000000; c0; c0; c0; c0; c0; c0; c0; c0; c0; c0; c0; cq (-230252000984221261616272410367415621261130298274455611733277) 1000000000000000000000000000000000000000000000000000000000000; cq (-721106840466912905659582237106874247165856493509961561958267) 100000000000000000000000000000000000000000000000000000000000; cq 186450780347418167618497663926066170108879783339331192776317 50000000000000000000000000000000000000000000000000000000000000; cq (-3682933560368164224052954526501755914150963853295469465947) 781250000000000000000000000000000000000000000000000000000; cq (-44091914386337310513460498758199418393725971673900033189913) 25000000000000000000000000000000000000000000000000000000000000; cq 382065274019349382781514655440118825592586683906968498824099 50000000000000000000000000000000000000000000000000000000000; cq 87650510914937958747474020737436177742053237473343842060897 25000000000000000000000000000000000000000000000000000000000; c0; c0; c0; c0; c0; c0; c0; c0; c0; c0; c0; c0; c0; c0; c0];
    [cq 14939331336765085849921548228839550209309201353319189662247 1250000000000000000000000000000000000000000000000000000000; c0; c0; c0; c0; c0; c0; c0; c0; c0; c0; c0; cq 779480932108175968783516700231764388220284279598980948538579 100000000000000000000000000000000000000000000000000000000000; cq (-141125348466831448130890247780226070360117025015335139135033) 2500000000000000000000000000000000000000000000000000000000; cq 912376306930644901344530449290276645709607450403673704844997 10000000000000000000000000000000000000000000000000000000000000; cq (-25467255985086977240389104861839855007632543505983792661031) 2000000000000000000000000000000000000000000000000000000000; cq (-49611990238089964039192851367467084339047883804143484126169) 1250000000000000000000000000000000000000000000000000000000000; cq 544392141883570886996225765155307791861438378423305337073797 10000000000000000000000000000000000000000000000000000000000; cq (-364411637921569236846406990361350645806721478409266709351203) 100000000000000000000000000000000000000000000000000000000000; cq (-804503249910509910899030787958579499315694913210787878260459) 1000000000000000000000000000000000000000000000000000000000000; c0; c0; c0; c0; c0; c0; c0; c0; c0; c0; c0; c0; c0; c0];
    [cq (-14880942650710048842783886826864762556193061208214859707669) 100000000000000000000000000000000000000000000000000000000; c0; c0; c0; c0; c0; c0; c0; c0; c0; c0; c0; cq (-917295278291256484357935662402321623495228729036354276506427) 10000000000000000000000000000000000000000000000000000000000; cq 353828072485799179917287859643167858077410564483324782597143 500000000000000000000000000000000000000000000000000000000; cq (-5528180592874122045264848065579546540066915447131888477777) 5000000000000000000000000000000000000000000000000000000000; cq 176134591883811372587859898076055660406999516762301689616841 1000000000000000000000000000000000000000000000000000000000; cq 245692412107440331134449172582227278708442315701382396269373 500000000000000000000000000000000000000000000000000000000000; cq (-136855600089962988871647507122179016391215433578720055660161) 200000000000000000000000000000000000000000000000000000000; cq 279910604998398258984224332124380407446002518400668657974589 10000000000000000000000000000000000000000000000000000000000; cq 32984927507570583360917741092788309608766039905936243768313 2500000000000000000000000000000000000000000000000000000000; cq 125128781283980445450114974148056006317268830077396406361417 100000000000000000000000000000000000000000000000000000000000; c0; c0; c0; c0; c0; c0; c0; c0; c0; c0; c0; c0; c0];
    [cq (-483653973474098381822063059216609697919975704285938631440241) 50000000000000000000000000000000000000000000000000000000000; c0; c0; c0; c0; c0; c0; c0; c0; c0; c0; c0; cq (-55873768857313191430480778462745045062228835176093928893339) 12500000000000000000000000000000000000000000000000000000000; cq 91025425738190536393648390080010550235781181563479696706969 2000000000000000000000000000000000000000000000000000000000; cq (-713085086183826912791492024438246129930559805352394367050813) 10000000000000000000000000000000000000000000000000000000000000; cq 5613680703420637079129531223996969210391340038839724252577 500000000000000000000000000000000000000000000000000000000; cq 126244376717622724516237912909138809361786889819105426371393 1000000000000000000000000000000000000000000000000000000000000; cq (-27214958721842707100363164056702631726488394029226337984589) 625000000000000000000000000000000000000000000000000000000; cq 787174307543058978398792994996550902064546091443233850464377 1000000000000000000000000000000000000000000000000000000000000; cq 532264696744684215669300708603886690785395776821503851830821 1000000000000000000000000000000000000000000000000000000000000; cq 211211366998162663005112563735694386287543269404801673412667 500000000000000000000000000000000000000000000000000000000000; cq 859131249503067107308438031499859443441115056294154956487671 10000000000000000000000000000000000000000000000000000000000000; c0; c0; c0; c0; c0; c0; c0; c0; c0; c0; c0; c0];
    [cq (-100664032447054702403396606900426891472202824757968765569183) 10000000000000000000000000000000000000000000000000000000000; c0; c0; c0; c0; c0; c0; c0; cq (-73250654009807994058737159369794958346623816346710441463657) 2000000000000000000000000000000000000000000000000000000000000; cq 87563743909053420494212351744961631086697270617775893730037 2500000000000000000000000000000000000000000000000000000000000; cq 360946016362113508931786658758335239823689929864237671348749 10000000000000000000000000000000000000000000000000000000000000; cq (-265219967553681106351595946834601923649627012457464284442911) 10000000000000000000000000000000000000000000000000000000000000; cq (-627088972181464143590553149478871603839356122957396018530209) 100000000000000000000000000000000000000000000000000000000000; cq 482079237442562989090702103008195063923492593141636117832993 10000000000000000000000000000000000000000000000000000000000; cq (-347235844568082820441197590291866417278877084574544315150671) 5000000000000000000000000000000000000000000000000000000000000; cq 25362138040970059139668274182721961413221696762282425401957 2000000000000000000000000000000000000000000000000000000000; cq 14958896121040469354770179437626411762615976745524951653733 1250000000000000000000000000000000000000000000000000000000000; cq (-467249764992482408003358268242662695593201321659795608950429) 10000000000000000000000000000000000000000000000000000000000; cq 26605922665325342262942007859643318279806702238245420264287 20000000000000000000000000000000000000000000000000000000000; cq 10076678750339829835343890361992665777116271779366171970837 10000000000000000000000000000000000000000000000000000000000; cq 13094503245854068229007649279717543930798172116530452573601 625000000000000000000000000000000000000000000000000000000000; cq 210134706331264177317735424331396407424412188443757490871603 10000000000000000000000000000000000000000000000000000000000000; cq 952196014417121794175101542454575907376360233658356240547761 100000000000000000000000000000000000000000000000000000000000000; c0; c0; c0; c0; c0; c0; c0; c0; c0; c0; c0];
    [cq (-409478081677743708772589097409370357624424341606752069725341) 1000000000000000000000000000000000000000000000000000000000; c0; c0; c0; c0; c0; c0; c0; cq 105225956011813692804548505999505327894403702612813350020441 500000000000000000000000000000000000000000000000000000000000; cq 103427452057230411936482926828825709938667999698324740166559 100000000000000000000000000000000000000000000000000000000000; cq 300151822932211243525620224103320287469539046203078472784153 50000000000000000000000000000000000000000000000000000000000000; cq 855938125099619537578012106002407728915062652616416005816477 1000000000000000000000000000000000000000000000000000000000000; cq (-25051699854744786049277765772931613038658405042078207596699) 100000000000000000000000000000000000000000000000000000000; cq 194642466652388427766053750328264758595829850895761428240231 100000000000000000000000000000000000000000000000000000000; cq (-152251941051155182753052904543430441393475272048801050842587) 50000000000000000000000000000000000000000000000000000000000; cq 49062637952828171352120826529916808384159854227406167157623 100000000000000000000000000000000000000000000000000000000; cq 156647589531270907115484067013597445739595615245966775329993 100000000000000000000000000000000000000000000000000000000000; cq (-188197428994011173362217267377035870619215906638453056643641) 100000000000000000000000000000000000000000000000000000000; cq 150518444944969435055767542728660629964324123782849172870227 2000000000000000000000000000000000000000000000000000000000; cq 172867178490165533811217172368277344848364322396775507494501 5000000000000000000000000000000000000000000000000000000000; cq 80286919860242240358854340461768438792255741687222906970643 25000000000000000000000000000000000000000000000000000000000; cq (-92081608347682878261440280847411769773449019053076564164611) 200000000000000000000000000000000000000000000000000000000000; cq (-435359169920905261215942068978993122862126023694468286107719) 5000000000000000000000000000000000000000000000000000000000000; cq (-739351814158303067567016952195521063999185773249132944724553) 100000000000000000000000000000000000000000000000000000000000; c0; c0; c0; c0; c0; c0; c0; c0; c0; c0];
    [cq 343347475853550878921093496257596781120623891072008459930197 100000000000000000000000000000000000000000000000000000000000; c0; c0; c0; c0; c0; c0; c0; cq 124581602427908703769474574402997574729942326792708840049111 50000000000000000000000000000000000000000000000000000000000000; cq 115069393927296574819199923186871384386043561319071117111829 5000000000000000000000000000000000000000000000000000000000000; cq (-80538989173244274681119023116780219547365901190155115260827) 25000000000000000000000000000000000000000000000000000000000000; cq 988442549447664668946335414487885256040819982786014648129297 100000000000000000000000000000000000000000000000000000000000000; cq 21625279937792250778830784190475735404575922533573270791653 10000000000000000000000000000000000000000000000000000000000; cq (-40674966136614355332016410165034872251746888010057213100679) 2500000000000000000000000000000000000000000000000000000000; cq (-128534502120524552843583417470935010538029037542654506231743) 1000000000000000000000000000000000000000000000000000000000000; cq (-898915042666504253089307820833379330486511746063552853023189) 100000000000000000000000000000000000000000000000000000000000; cq (-348595363232025333387080201851013650192401767250513765000963) 100000000000000000000000000000000000000000000000000000000000000; cq 78968097056669903768117593694347787067926693512569869170667 5000000000000000000000000000000000000000000000000000000000; cq (-287201665457047532814082741008667910074191831597837704012329) 500000000000000000000000000000000000000000000000000000000000; cq (-43200254877674162086590312076015622816904653603456913253769) 125000000000000000000000000000000000000000000000000000000000; cq (-662241490206585091731619991383757781133067992707418687587487) 100000000000000000000000000000000000000000000000000000000000000; cq (-15555762584844083280650929172147286195186944192535182238923) 2000000000000000000000000000000000000000000000000000000000000; cq (-356084192402274913338827232697437364675240818791706587952939) 100000000000000000000000000000000000000000000000000000000000000; cq 119820626612482699912449437407460047364324233534839762247083 25000000000000000000000000000000000000000000000000000000000; cq 153725464873068577844576387402512082757034273069877432944621 1000000000000000000000000000000000000000000000000000000000000; c0; c0; c0; c0; c0; c0; c0; c0; c0];
    [cq 323038520871985442326994734440031535091364975047784630088983 10000000000000000000000000000000000000000000000000000000000; c0; c0; c0; c0; cq (-158993848133102546950956423846356203994304584851551976102817) 50000000000000000000000000000000000000000000000000000000000000; cq 201599428726548019315205427880094876598385777891854937529937 250000000000000000000000000000000000000000000000000000000000; cq 975983126412388979093522850684288851314672048003054550357187 10000000000000000000000000000000000000000000000000000000000000; cq 778575578158398909027512446452927238999763460594181964958853 1000000000000000000000000000000000000000000000000000000000000; cq 204890423831599428189499202098105603312029235081420653574829 1000000000000000000000000000000000000000000000000000000000000; cq (-78130789813734094153535471975263912605731446118212180446403) 50000000000000000000000000000000000000000000000000000000000; c0; cq 163429891882310570648504243973927174708753353504154550405647 10000000000000000000000000000000000000000000000000000000000; cq (-154544555293543621230730189631471036399316683669609116705323) 1000000000000000000000000000000000000000000000000000000000; cq 156971088703334872692034283417621761466263593582497085955201 100000000000000000000000000000000000000000000000000000000000; cq 65537109017449626264285963453980146233104480994946700958827 20000000000000000000000000000000000000000000000000000000000; cq (-503489245193653176348040727199783626534081095691632396802451) 10000000000000000000000000000000000000000000000000000000000000; cq 153321151858041665070593767885914694011224363102594556731397 1000000000000000000000000000000000000000000000000000000000; cq 717568186327720495846766484814784143567826308034865369443637 100000000000000000000000000000000000000000000000000000000000; cq (-36754593584412560243239707487116373651915074297597199675449) 12500000000000000000000000000000000000000000000000000000000; cq (-166461486519200786117687419005657217570480123299314221996403) 2500000000000000000000000000000000000000000000000000000000000; cq (-92469210998168732245849733712443452235393302803371856839429) 2000000000000000000000000000000000000000000000000000000000000; cq (-204198733585679401539388228617269778848579774821581777675337) 10000000000000000000000000000000000000000000000000000000000000; cq (-266761553219367925257976720582999053987022545247895795609357) 5000000000000000000000000000000000000000000000000000000000; cq (-135548714715078654978732186705996404017554501614191325114947) 100000000000000000000000000000000000000000000000000000000000; cq (-78598137900616375941450867585729624588843609557221291730933) 50000000000000000000000000000000000000000000000000000000000; c0; c0; c0; c0; c0; c0; c0; c0];
    [cq (-33290293497268302574406258880786351752912074226163795691881) 2000000000000000000000000000000000000000000000000000000000; c0; c0; c0; c0; cq 59223278032450330804299000579804652473838956044425713683499 10000000000000000000000000000000000000000000000000000000000000; cq 14697692498870034756788259475184191045480079085815900781589 31250000000000000000000000000000000000000000000000000000000; cq 149844431924339500426990918548096199568415560835890639592097 500000000000000000000000000000000000000000000000000000000000; cq (-247656877593994914689992276329810825853958069263947095548189) 1000000000000000000000000000000000000000000000000000000000000; cq 887160238171501463151998814712493716179561388805429745669 8000000000000000000000000000000000000000000000000000000000; c0; cq (-245859521923114573535333314352097048839040953605336522494433) 500000000000000000000000000000000000000000000000000000000000; cq (-114743154427289496968389492564352536350842454130853175250727) 10000000000000000000000000000000000000000000000000000000000; cq 50162072911014392033856405367905275009549585413974374319141 625000000000000000000000000000000000000000000000000000000; cq (-24008268998752677976582032922439318984182927583880513697853) 62500000000000000000000000000000000000000000000000000000000; cq 364073833734053791735663475463068057883806290931438882124823 50000000000000000000000000000000000000000000000000000000000; cq (-66349692306124189755285854088017637418413670808375942157037) 500000000000000000000000000000000000000000000000000000000000; cq (-162159966505146145334935857950451048001214143326726598061787) 2000000000000000000000000000000000000000000000000000000000; cq (-62518746417810319760884092828089559981126873746201602898747) 50000000000000000000000000000000000000000000000000000000000; cq 129631797484771840511888189752188662497113223679648443889359 50000000000000000000000000000000000000000000000000000000000; cq (-301440298346404539830163997260526875264431537275641495291993) 1000000000000000000000000000000000000000000000000000000000000; cq 11069223039491616872585322578638689584762341952865920715051 50000000000000000000000000000000000000000000000000000000000; cq 82757727477189293195598987097469315299627643542980989055121 1000000000000000000000000000000000000000000000000000000000000; cq 189960662040611520464672450037243263998175161412237156872211 10000000000000000000000000000000000000000000000000000000000; cq 269231946409639685623468015128334167460051910348912845121977 1000000000000000000000000000000000000000000000000000000000000; cq 8133741372353326873149468246481446699406251464209184013951 5000000000000000000000000000000000000000000000000000000000; cq 245859521923114573535333314352097048839040953605336522494433 500000000000000000000000000000000000000000000000000000000000; c0; c0; c0; c0; c0; c0; c0];
    [cq 167695962481810532923393758274562817196106627844982226213867 2000000000000000000000000000000000000000000000000000000000000; c0; c0; c0; c0; cq (-117949367100973814319755056031295775367961960590736150777613) 10000000000000000000000000000000000000000000000000000000000000; cq (-123649510284406326169736919371597299162996420176670066348749) 500000000000000000000000000000000000000000000000000000000000; cq 978080858367729012259313014081291665503740655476733940756599 10000000000000000000000000000000000000000000000000000000000000; cq 217590689243420631360008651767860318344168120024782176879989 1000000000000000000000000000000000000000000000000000000000000; c0; cq 1719820084541565310820745402459846833093090287188560824693 12500000000000000000000000000000000000000000000000000000000; cq 439870229715046685058790092341545026046103890294261359042581 10000000000000000000000000000000000000000000000000000000000000; c0; cq (-128425203442048335489251114154657575934689340910491007521743) 250000000000000000000000000000000000000000000000000000000000; cq 206588922787828877161052827099788364675355789654042144230593 250000000000000000000000000000000000000000000000000000000000; cq 51403627943962366525174776594503987902227311268392014925323 2000000000000000000000000000000000000000000000000000000000; c0; c0; c0; c0; c0; c0; c0; cq (-51403627943962366525174776594503987902227311268392014925323) 2000000000000000000000000000000000000000000000000000000000; cq (-206588922787828877161052827099788364675355789654042144230593) 250000000000000000000000000000000000000000000000000000000000; cq 128425203442048335489251114154657575934689340910491007521743 250000000000000000000000000000000000000000000000000000000000; cq (-439870229715046685058790092341545026046103890294261359042581) 10000000000000000000000000000000000000000000000000000000000000; cq (-1719820084541565310820745402459846833093090287188560824693) 12500000000000000000000000000000000000000000000000000000000; c0; c0; c0; c0; c0; c0];
    [cq 124380526654094412881516420868799316268491466359671423163289 1000000000000000000000000000000000000000000000000000000000000; c0; c0; c0; cq 45224056439516860284447732595840580239350464148526628793029 200000000000000000000000000000000000000000000000000000000000; cq 137885887618080880607695837016477814530969417491493385363543 10000000000000000000000000000000000000000000000000000000000000; cq (-3361050669983422248746997537071529284750431707626910914281) 50000000000000000000000000000000000000000000000000000000000; c0; c0; cq (-856238975085428354755349769879501772112121597411563802855067) 1000000000000000000000000000000000000000000000000000000000000; cq (-24542190358357363616032856253511726748522555064783425569197) 12500000000000000000000000000000000000000000000000000000000; cq (-116166411362059700618623128654460923625054099615209997489109) 500000000000000000000000000000000000000000000000000000000000; c0; cq 107665179771613337365417234219140736943108140513369523156691 25000000000000000000000000000000000000000000000000000000000; cq (-4573796300772898166559186112537350729495115546103650197353) 1562500000000000000000000000000000000000000000000000000000; cq (-823131666397858944454492334105458707735761966428138676971041) 10000000000000000000000000000000000000000000000000000000000; c0; c0; c0; c0; c0; c0; c0; cq 823131666397858944454492334105458707735761966428138676971041 10000000000000000000000000000000000000000000000000000000000; cq 4573796300772898166559186112537350729495115546103650197353 1562500000000000000000000000000000000000000000000000000000; cq (-107665179771613337365417234219140736943108140513369523156691) 25000000000000000000000000000000000000000000000000000000000; cq 116166411362059700618623128654460923625054099615209997489109 500000000000000000000000000000000000000000000000000000000000; cq 24542190358357363616032856253511726748522555064783425569197 12500000000000000000000000000000000000000000000000000000000; cq 856238975085428354755349769879501772112121597411563802855067 1000000000000000000000000000000000000000000000000000000000000; c0; c0; c0; c0; c0];
    [cq 103484561636679776672993546511910344499744798201971316606663 1000000000000000000000000000000000000000000000000000000000000; c0; c0; cq 4882755492256288903585763314758483085583708593366485389651 40000000000000000000000000000000000000000000000000000000000; cq 241287245165623311237567390062844056432959511925084024839701 500000000000000000000000000000000000000000000000000000000000; cq (-38140960001560699973088624000562020566411307247841147742197) 1000000000000000000000000000000000000000000000000000000000000; c0; cq (-137624881327700581034597126755127044352853577750009390428209) 250000000000000000000000000000000000000000000000000000000000; c0; cq (-142383162317037845577529652408758877515658376481349114099153) 200000000000000000000000000000000000000000000000000000000000; cq (-146032401417887835108247182539620218023833832411306898926763) 250000000000000000000000000000000000000000000000000000000000; c0; c0; cq 105523154062932466064358650023311375150187527139468493925359 50000000000000000000000000000000000000000000000000000000000; cq (-837494736739572135525742023001037992695260175335123517729291) 10000000000000000000000000000000000000000000000000000000000000; cq 510021499072320914075295969043344113107545060862804249161191 100000000000000000000000000000000000000000000000000000000000; c0; c0; c0; c0; c0; c0; c0; cq (-510021499072320914075295969043344113107545060862804249161191) 100000000000000000000000000000000000000000000000000000000000; cq 837494736739572135525742023001037992695260175335123517729291 10000000000000000000000000000000000000000000000000000000000000; cq (-105523154062932466064358650023311375150187527139468493925359) 50000000000000000000000000000000000000000000000000000000000; c0; cq 146032401417887835108247182539620218023833832411306898926763 250000000000000000000000000000000000000000000000000000000000; cq 142383162317037845577529652408758877515658376481349114099153 200000000000000000000000000000000000000000000000000000000000; cq 137624881327700581034597126755127044352853577750009390428209 250000000000000000000000000000000000000000000000000000000000; c0; c0; c0; c0];
    [cq 193333333333333333333333333333333333333333333333333333333333 1000000000000000000000000000000000000000000000000000000000000; c0; cq 11 50; cq (-2) 25; c0; c0; cq 27498356395181175979865601216267085211279764573961606615913 250000000000000000000000000000000000000000000000000000000000; cq (-127148524038135080692034253498576561070917813488351960423121) 500000000000000000000000000000000000000000000000000000000000; c0; cq 865570777116694254343770343821098281832847401233011859346737 1000000000000000000000000000000000000000000000000000000000000; cq 1662082245570465415533997763932860091684300464684932035801 500000000000000000000000000000000000000000000000000000000; c0; c0; cq (-120102223315977933882352385148661841260301942633996815127277) 10000000000000000000000000000000000000000000000000000000000; cq 476601466242493239430442776862061899602963782003580209476163 1000000000000000000000000000000000000000000000000000000000000; cq (-290243011221036390525802623213654099596251221332470910692353) 10000000000000000000000000000000000000000000000000000000000; c0; c0; c0; c0; c0; c0; c0; cq 290243011221036390525802623213654099596251221332470910692353 10000000000000000000000000000000000000000000000000000000000; cq (-476601466242493239430442776862061899602963782003580209476163) 1000000000000000000000000000000000000000000000000000000000000; cq 120102223315977933882352385148661841260301942633996815127277 10000000000000000000000000000000000000000000000000000000000; c0; cq (-1662082245570465415533997763932860091684300464684932035801) 500000000000000000000000000000000000000000000000000000000; cq (-865570777116694254343770343821098281832847401233011859346737) 1000000000000000000000000000000000000000000000000000000000000; cq 127148524038135080692034253498576561070917813488351960423121 500000000000000000000000000000000000000000000000000000000000; cq (-27498356395181175979865601216267085211279764573961606615913) 250000000000000000000000000000000000000000000000000000000000; c0; c0; c0];
    [cq (-833333333333333333333333333333333333333333333333333333333333) 1000000000000000000000000000000000000000000000000000000000000; cq 138888888888888888888888888888888888888888888888888888888889 100000000000000000000000000000000000000000000000000000000000; c0; c0; cq (-3) 4; c0; cq (-246264771859013152211341024557010660100107340790328892359537) 500000000000000000000000000000000000000000000000000000000000; c0; c0; c0; c0; c0; c0; c0; c0; c0; c0; c0; c0; c0; c0; c0; c0; c0; c0; c0; c0; c0; c0; c0; cq 246264771859013152211341024557010660100107340790328892359537 500000000000000000000000000000000000000000000000000000000000; cq 3 4; c0; c0];
    [cq 111111111111111111111111111111111111111111111111111111111111 1000000000000000000000000000000000000000000000000000000000000; c0; cq (-111111111111111111111111111111111111111111111111111111111111) 500000000000000000000000000000000000000000000000000000000000; c0; c0; c0; c0; c0; c0; c0; c0; c0; c0; c0; c0; c0; c0; c0; c0; c0; c0; c0; c0; c0; c0; c0; c0; c0; c0; c0; c0; c0; cq 111111111111111111111111111111111111111111111111111111111111 500000000000000000000000000000000000000000000000000000000000; c0];
    [cq 285835140388971558796088842163836414852927537894596466840753 1000000000000000000000000000000000000000000000000000000000000; cq 291666666666666666666666666666666666666666666666666666666667 1000000000000000000000000000000000000000000000000000000000000; cq 7 32; c0; cq 21 128; c0; cq 54548588736389164581797060395338026773322206080546985285379 250000000000000000000000000000000000000000000000000000000000; cq 36078579695739553372727044389355087543924010728369845712487 200000000000000000000000000000000000000000000000000000000000; c0; cq 205713839404845018859120755122929542277570094982808905393991 1000000000000000000000000000000000000000000000000000000000000; cq 7584868486930319999071341498732703617585811605833454435893 31250000000000000000000000000000000000000000000000000000000; cq 246465780813629305833609291181891407799228103869305705137021 1000000000000000000000000000000000000000000000000000000000000; cq (-86247985197722706244958538650405665515092615153732911055981) 25000000000000000000000000000000000000000000000000000000000; cq 45775112432007216352145812147691716858844074510548043691859 200000000000000000000000000000000000000000000000000000000000; cq 141645299851075707660763709528366667989218297746927894915717 500000000000000000000000000000000000000000000000000000000000; cq 64217025167553328192026298108847357401111464066447741193591 20000000000000000000000000000000000000000000000000000000000; cq (-44707755472969139984046751242832501592825046016734806416813) 200000000000000000000000000000000000000000000000000000000000; cq (-707121157204419073518727286207487212130091231955206160635271) 1000000000000000000000000000000000000000000000000000000000000; cq 321123345150287080408174729202856500893260034443022374267639 100000000000000000000000000000000000000000000000000000000000; cq 140954348309669766030414474301123175769045945573548986335553 100000000000000000000000000000000000000000000000000000000000; cq (-151362053443742613121602276742518111090963026203676055891793) 1000000000000000000000000000000000000000000000000000000000000; cq 14894022981080571058188963208584799375884841128085931948663 40000000000000000000000000000000000000000000000000000000000; cq 252978746406361336722199907762141285915775728129414319261111 1000000000000000000000000000000000000000000000000000000000000; cq (-64217025167553328192026298108847357401111464066447741193591) 20000000000000000000000000000000000000000000000000000000000; cq (-141645299851075707660763709528366667989218297746927894915717) 500000000000000000000000000000000000000000000000000000000000; cq (-45775112432007216352145812147691716858844074510548043691859) 200000000000000000000000000000000000000000000000000000000000; cq (-246465780813629305833609291181891407799228103869305705137021) 1000000000000000000000000000000000000000000000000000000000000; cq (-7584868486930319999071341498732703617585811605833454435893) 31250000000000000000000000000000000000000000000000000000000; cq (-205713839404845018859120755122929542277570094982808905393991) 1000000000000000000000000000000000000000000000000000000000000; cq (-36078579695739553372727044389355087543924010728369845712487) 200000000000000000000000000000000000000000000000000000000000; cq (-54548588736389164581797060395338026773322206080546985285379) 250000000000000000000000000000000000000000000000000000000000; cq (-21) 128; cq (-7) 32; cq (-291666666666666666666666666666666666666666666666666666666667) 1000000000000000000000000000000000000000000000000000000000000]] |}.
