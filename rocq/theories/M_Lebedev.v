(** Model of Lebedev quadrature: rstsr-sci-traits/src/integrate/lebedev.rs and impl_cpu_serial.rs, auto_impl_rayon.rs, impl_faer.rs (one text).
    Arithmetic is that of an arbitrary type, not f64; the decimal numbers of the tables are integers at 22 decimal places, which is exact. *)
From Verif Require Import Base Spec M_Layout M_Rearr M_Tensor.
Local Open Scope Z_scope.

(** lebedev_order_to_degree, lebedev.rs:151-192 *)
Definition order_to_degree_table : list (Z * Z) :=
  [(3, 6); (5, 14); (7, 26); (9, 38); (11, 50); (13, 74); (15, 86); (17, 110); (19, 146); (21, 170); (23, 194); (25, 230); (27, 266); (29, 302); (31, 350); (35, 434); (41, 590); (47, 770); (53, 974); (59, 1202); (65, 1454); (71, 1730); (77, 2030); (83, 2354); (89, 2702); (95, 3074); (101, 3470); (107, 3890); (113, 4334); (119, 4802); (125, 5294); (131, 5810)].
Definition order_to_degree (n : Z) : res Z :=
  let order := match find (fun e => fst e =? n) order_to_degree_table with Some e => snd e | None => 0 end in
  if order =? 0 then Err InvalidValue else Ok order.
(** lebedev_degree_to_order, lebedev.rs:195-236 *)
Definition degree_to_order_table : list (Z * Z) :=
  [(6, 3); (14, 5); (26, 7); (38, 9); (50, 11); (74, 13); (86, 15); (110, 17); (146, 19); (170, 21); (194, 23); (230, 25); (266, 27); (302, 29); (350, 31); (434, 35); (590, 41); (770, 47); (974, 53); (1202, 59); (1454, 65); (1730, 71); (2030, 77); (2354, 83); (2702, 89); (3074, 95); (3470, 101); (3890, 107); (4334, 113); (4802, 119); (5294, 125); (5810, 131)].
Definition degree_to_order (n : Z) : res Z :=
  let order := match find (fun e => fst e =? n) degree_to_order_table with Some e => snd e | None => 0 end in
  if order =? 0 then Err InvalidValue else Ok order.

Section Generate.
  Context {T : Type} (zero one : T) (add mul sub : T -> T -> T) (opp sqrt : T -> T).
  (** sqrt(1/2) and sqrt(1/3), lebedev.rs:268, 289 *)
  Context (half_root third_root : T).
  (** the number n / 10^22 *)
  Context (decimal : Z -> T).
  Notation "- x" := (opp x).
  (** the coordinates that lebedev_generate_sph_oh writes, lebedev.rs:249-421 *)
  Definition sph_oh (code : Z) (a b : T) : res (list T) :=
    if code =? 0 then let a := one in Ok
      [ a; zero; zero; -a; zero; zero; zero; a; zero; zero; -a; zero;
      zero; zero; a; zero; zero; -a ]
    else if code =? 1 then let a := half_root in Ok
      [ zero; a; a; zero; -a; a; zero; a; -a; zero; -a; -a;
      a; zero; a; -a; zero; a; a; zero; -a; -a; zero; -a;
      a; a; zero; -a; a; zero; a; -a; zero; -a; -a; zero ]
    else if code =? 2 then let a := third_root in Ok
      [ a; a; a; -a; a; a; a; -a; a; -a; -a; a;
      a; a; -a; -a; a; -a; a; -a; -a; -a; -a; -a ]
    else if code =? 3 then let b := sqrt (sub one (mul (mul (add one one) a) a)) in Ok
      [ a; a; b; -a; a; b; a; -a; b; -a; -a; b;
      a; a; -b; -a; a; -b; a; -a; -b; -a; -a; -b;
      a; b; a; -a; b; a; a; -b; a; -a; -b; a;
      a; b; -a; -a; b; -a; a; -b; -a; -a; -b; -a;
      b; a; a; -b; a; a; b; -a; a; -b; -a; a;
      b; a; -a; -b; a; -a; b; -a; -a; -b; -a; -a ]
    else if code =? 4 then let b := sqrt (sub one (mul a a)) in Ok
      [ a; b; zero; -a; b; zero; a; -b; zero; -a; -b; zero;
      b; a; zero; -b; a; zero; b; -a; zero; -b; -a; zero;
      a; zero; b; -a; zero; b; a; zero; -b; -a; zero; -b;
      b; zero; a; -b; zero; a; b; zero; -a; -b; zero; -a;
      zero; a; b; zero; -a; b; zero; a; -b; zero; -a; -b;
      zero; b; a; zero; -b; a; zero; b; -a; zero; -b; -a ]
    else if code =? 5 then let c := sqrt (sub (sub one (mul a a)) (mul b b)) in Ok
      [ a; b; c; -a; b; c; a; -b; c; -a; -b; c;
      a; b; -c; -a; b; -c; a; -b; -c; -a; -b; -c;
      a; c; b; -a; c; b; a; -c; b; -a; -c; b;
      a; c; -b; -a; c; -b; a; -c; -b; -a; -c; -b;
      b; a; c; -b; a; c; b; -a; c; -b; -a; c;
      b; a; -c; -b; a; -c; b; -a; -c; -b; -a; -c;
      b; c; a; -b; c; a; b; -c; a; -b; -c; a;
      b; c; -a; -b; c; -a; b; -c; -a; -b; -c; -a;
      c; a; b; -c; a; b; c; -a; b; -c; -a; b;
      c; a; -b; -c; a; -b; c; -a; -b; -c; -a; -b;
      c; b; a; -c; b; a; c; -b; a; -c; -b; a;
      c; b; -a; -c; b; -a; c; -b; -a; -c; -b; -a ]
    else Panic.
  (** the number of weights it fills, e.g. lebedev.rs:263 *)
  Definition sph_oh_weights (code : Z) : res Z :=
    if code =? 0 then Ok 6 else if code =? 1 then Ok 12 else if code =? 2 then Ok 8 else if code =? 3 then Ok 24 else if code =? 4 then Ok 24 else if code =? 5 then Ok 48 else Panic.
  (** code_length, lebedev.rs:1789-1799 *)
  Definition code_length (code : Z) : res Z :=
    if code =? 0 then Ok 6 else if code =? 1 then Ok 12 else if code =? 2 then Ok 8 else if code =? 3 then Ok 24 else if code =? 4 then Ok 24 else if code =? 5 then Ok 48 else Panic.
  (** [&mut v[from..from + len]] and then [s[..k]].copy_from_slice of k values (a fill is a copy of equal values): panics outside the buffer, and when the
      slice is shorter than k *)
  Definition write_slice (v : list (option T)) (from len : Z) (xs : list T) : res (list (option T)) :=
    let k := Z.of_nat (length xs) in
    if (0 <=? from) && (0 <=? len) && (from + len <=? Z.of_nat (length v)) && (k <=? len)
    then Ok (firstn (Z.to_nat from) v ++ map Some xs ++ skipn (Z.to_nat (from + k)) v) else Panic.
  (** one round of the loop, lebedev.rs:1805-1811: lebedev_generate_sph_oh(code, a, b, v, quads_slice, weights_slice) *)
  Definition place_orbit (st : list (option T) * list (option T) * Z) (r : Z * (Z * Z * Z)) : res (list (option T) * list (option T) * Z) :=
    let '(quads, weights, index) := st in
    let '(code, (a, b, v)) := r in
    let* len := code_length code in
    let* xs := sph_oh code (decimal a) (decimal b) in
    let* quads := write_slice quads (index * 3) (len * 3) xs in
    let* k := sph_oh_weights code in
    let* weights := write_slice weights index len (repeat (decimal v) (Z.to_nat k)) in
    Ok (quads, weights, index + len).
End Generate.

(** lebedev.rs:435-437 *)
Definition table_6 : list (Z * (Z * Z * Z)) :=
  [ (0, (0, 0, 1666666666666667100000)) ].
(** lebedev.rs:438-441 *)
Definition table_14 : list (Z * (Z * Z * Z)) :=
  [ (0, (0, 0, 666666666666666660000));
    (2, (0, 0, 749999999999999970000)) ].
(** lebedev.rs:442-446 *)
Definition table_26 : list (Z * (Z * Z * Z)) :=
  [ (0, (0, 0, 476190476190476230000));
    (1, (0, 0, 380952380952380990000));
    (2, (0, 0, 321428571428571400000)) ].
(** lebedev.rs:447-451 *)
Definition table_38 : list (Z * (Z * Z * Z)) :=
  [ (0, (0, 0, 95238095238095247000));
    (2, (0, 0, 321428571428571400000));
    (4, (4597008433809831000000, 0, 285714285714285710000)) ].
(** lebedev.rs:452-457 *)
Definition table_50 : list (Z * (Z * Z * Z)) :=
  [ (0, (0, 0, 126984126984127000000));
    (1, (0, 0, 225749559082892400000));
    (2, (0, 0, 210937500000000010000));
    (3, (3015113445777635700000, 0, 201733355379188700000)) ].
(** lebedev.rs:458-464 *)
Definition table_74 : list (Z * (Z * Z * Z)) :=
  [ (0, (0, 0, 5130671797338463800));
    (1, (0, 0, 166040695657420390000));
    (2, (0, 0, -295860389610389590000));
    (3, (4803844614152614200000, 0, 265762070821594610000));
    (4, (3207726489807764000000, 0, 165221709937157100000)) ].
(** lebedev.rs:465-471 *)
Definition table_86 : list (Z * (Z * Z * Z)) :=
  [ (0, (0, 0, 115440115440115410000));
    (2, (0, 0, 119439090858562800000));
    (3, (3696028464541502000000, 0, 111105557106034000000));
    (3, (6943540066026664400000, 0, 118765012945371410000));
    (4, (3742430390903411800000, 0, 118123037469044810000)) ].
(** lebedev.rs:472-479 *)
Definition table_110 : list (Z * (Z * Z * Z)) :=
  [ (0, (0, 0, 38282704949371619000));
    (2, (0, 0, 97937375124875128000));
    (3, (1851156353447362100000, 0, 82117372831911114000));
    (3, (6904210483822922400000, 0, 99428148911781030000));
    (3, (3956894730559418800000, 0, 95954713360709622000));
    (4, (4783690288121502100000, 0, 96949963616630285000)) ].
(** lebedev.rs:480-488 *)
Definition table_146 : list (Z * (Z * Z * Z)) :=
  [ (0, (0, 0, 5996313688621380900));
    (1, (0, 0, 73729997186207557000));
    (2, (0, 0, 72105153601444878000));
    (3, (6764410400114263500000, 0, 71163554931175550000));
    (3, (4174961227965453000000, 0, 67538294863144768000));
    (3, (1574676672039082000000, 0, 75743941590540338000));
    (5, (1403553811713182900000, 4493328323269557000000, 69910873533032616000)) ].
(** lebedev.rs:489-498 *)
Definition table_170 : list (Z * (Z * Z * Z)) :=
  [ (0, (0, 0, 55448429020373653000));
    (1, (0, 0, 60713327706707516000));
    (2, (0, 0, 63836747735150929000));
    (3, (2551252621114134000000, 0, 51833875877477899000));
    (3, (6743601460362765900000, 0, 63179290098137253000));
    (3, (4318910696719410200000, 0, 62016700065890768000));
    (4, (2613931360335988200000, 0, 54771433851373477000));
    (5, (4990453161796036800000, 1446630744325115000000, 59683839876811563000)) ].
(** lebedev.rs:499-509 *)
Definition table_194 : list (Z * (Z * Z * Z)) :=
  [ (0, (0, 0, 17823404472446110000));
    (1, (0, 0, 57169059499771017000));
    (2, (0, 0, 55733831788487382000));
    (3, (6712973442695225900000, 0, 56087040825879972000));
    (3, (2892465627575439000000, 0, 51582377118053833000));
    (3, (4446933178717437100000, 0, 55187714672736143000));
    (3, (1299335447650067100000, 0, 41067770281693937000));
    (4, (3457702197611283200000, 0, 50518460646148079000));
    (5, (1590417105383530000000, 8360360154824588700000, 55302489162330944000)) ].
(** lebedev.rs:510-521 *)
Definition table_230 : list (Z * (Z * Z * Z)) :=
  [ (0, (0, 0, -552263991972732490000));
    (2, (0, 0, 44502746074452258000));
    (3, (4492044687397611100000, 0, 44968410679214043000));
    (3, (2520419490210201200000, 0, 50491534504787496000));
    (3, (6981906658447242200000, 0, 39764080180518828000));
    (3, (6587405243460959800000, 0, 44014006503810144000));
    (3, (403854405009766020000, 0, 172454435054440090000));
    (4, (5823842309715584500000, 0, 42310830953573427000));
    (4, (3545877390518688000000, 0, 51980698640643986000));
    (5, (2272181808998187100000, 4864661535886646800000, 46957209725688826000)) ].
(** lebedev.rs:522-534 *)
Definition table_266 : list (Z * (Z * Z * Z)) :=
  [ (0, (0, 0, -13137691273269519000));
    (1, (0, 0, -25227287048593360000));
    (2, (0, 0, 41868538817005831000));
    (3, (7039373391585475000000, 0, 53151679778108852000));
    (3, (1012526248572414000000, 0, 40471423770862191000));
    (3, (4647448726420538900000, 0, 41124823944069903000));
    (3, (3277420654971628900000, 0, 35955848997587820000));
    (3, (6620338663699973900000, 0, 42561313514281581000));
    (4, (8506508083520398800000, 0, 42295827006472398000));
    (5, (3233484542692898800000, 1153112011009701000000, 40809142257805051000));
    (5, (2314790158712601000000, 5244939240922365000000, 40714675938309641000)) ].
(** lebedev.rs:535-548 *)
Definition table_302 : list (Z * (Z * Z * Z)) :=
  [ (0, (0, 0, 8545911725128148300));
    (2, (0, 0, 35991192850255709000));
    (3, (3515640345570105200000, 0, 34497884243058830000));
    (3, (6566329410219612400000, 0, 36048226014198819000));
    (3, (4729054132581004800000, 0, 35767296617433670000));
    (3, (961830852261478380000, 0, 23521014136891642000));
    (3, (2219645236294177900000, 0, 31089531224136749000));
    (3, (7011766416089545400000, 0, 36500458076772551000));
    (4, (2644152887060662900000, 0, 29823449631718041000));
    (4, (5718955891878960700000, 0, 36008209322164601000));
    (5, (2510034751770465200000, 8000727494073951500000, 35715405542733870000));
    (5, (1233548532583327000000, 4127724083168530800000, 33923122050061698000)) ].
(** lebedev.rs:549-563 *)
Definition table_350 : list (Z * (Z * Z * Z)) :=
  [ (0, (0, 0, 30067967494539359000));
    (2, (0, 0, 30506277456507709000));
    (3, (7068965463912315600000, 0, 16211046002889910000));
    (3, (4794682625712025100000, 0, 30057014849017519000));
    (3, (1927533154878018900000, 0, 29909925296537740000));
    (3, (6930357961327122700000, 0, 29821706441075951000));
    (3, (3608302115520091200000, 0, 27215642373109921000));
    (3, (6498486161496168600000, 0, 30335137958111412000));
    (4, (1932945013230339100000, 0, 30079495552185328000));
    (4, (3800494919899303200000, 0, 28819646030553070000));
    (5, (2899558825499574100000, 7934537856582315500000, 29583576265356962000));
    (5, (968412145510395700000, 8280801506686862300000, 30360200264070878000));
    (5, (1833434647041659000000, 9074658265305126600000, 28321874039263029000)) ].
(** lebedev.rs:564-581 *)
Definition table_434 : list (Z * (Z * Z * Z)) :=
  [ (0, (0, 0, 5265897968224435800));
    (1, (0, 0, 25482199720026069000));
    (2, (0, 0, 25123174189273069000));
    (3, (6909346307509111100000, 0, 25304038011863552000));
    (3, (1774836054609157900000, 0, 20142790209185281000));
    (3, (4914342637784746000000, 0, 25017251684029359000));
    (3, (6456664707424255600000, 0, 25132671745975639000));
    (3, (2861289010307638300000, 0, 23026947822274162000));
    (3, (756808436717801850000, 0, 14624956215946140000));
    (3, (3927259763368001800000, 0, 24453734373129799000));
    (4, (8818132877794288000000, 0, 24174423756389810000));
    (4, (9776428111182649000000, 0, 19109512821795321000));
    (5, (2054823696403043900000, 8689460322872412100000, 24169300443247750000));
    (5, (5905157048925271400000, 7999278543857285500000, 25122368545634952000));
    (5, (5550152361076806700000, 7717462626915900800000, 24966440545530861000));
    (5, (9371809858553722400000, 3344363145343455200000, 22366077604378488000)) ].
(** lebedev.rs:582-603 *)
Definition table_590 : list (Z * (Z * Z * Z)) :=
  [ (0, (0, 0, 3095121295306187200));
    (2, (0, 0, 18523796985974890000));
    (3, (7040954938227469400000, 0, 18717906392777439000));
    (3, (6807744066455243500000, 0, 18588125854383170000));
    (3, (6372546939258751900000, 0, 18520288282962130000));
    (3, (5044419707800358300000, 0, 18467159561512420000));
    (3, (4215761784010966800000, 0, 18184717781627689000));
    (3, (3317920736472123000000, 0, 17495646572811541000));
    (3, (2384736701421887000000, 0, 16172106472544111000));
    (3, (1459036449157762900000, 0, 13847372348516919000));
    (3, (609503411550719600000, 0, 9764331165051050100));
    (4, (6116843442009876100000, 0, 18571611967740779000));
    (4, (3964755348199858200000, 0, 17051539963958641000));
    (4, (1724782009907724100000, 0, 13003216858860479000));
    (5, (5610263808622060200000, 3518280927733519200000, 18428664729052860000));
    (5, (4742392842551980100000, 2634716655937949800000, 18026589343774510000));
    (5, (5984126497885380300000, 1816640840360209100000, 18498305604436600000));
    (5, (3791035407695563200000, 1720795225656877900000, 17139045071067091000));
    (5, (2778673190586243800000, 821302158193251140000, 15552136033968079000));
    (5, (5033564271075117200000, 899920584207487550000, 18022391280085250000)) ].
(** lebedev.rs:604-630 *)
Definition table_770 : list (Z * (Z * Z * Z)) :=
  [ (0, (0, 0, 2192942088181184000));
    (1, (0, 0, 14364336173190799000));
    (2, (0, 0, 14219403443358771000));
    (3, (508720441050235990000, 0, 6798123511050502100));
    (3, (1228198790178831000000, 0, 9913184235294911400));
    (3, (2026890814408786000000, 0, 11802078332389489000));
    (3, (2847745156464294200000, 0, 12965996020809210000));
    (3, (3656719078978025700000, 0, 13658714274283161000));
    (3, (4428264886713468900000, 0, 14029886047753251000));
    (3, (5140619627249735100000, 0, 14186455635956090000));
    (3, (6306401219166802900000, 0, 14213767418516619000));
    (3, (6716883332022611800000, 0, 14239964754909620000));
    (3, (6979792685336880800000, 0, 14315540421785671000));
    (4, (1446865674195309000000, 0, 9254401499865367800));
    (4, (3390263475411216000000, 0, 12502399950535090000));
    (4, (5335804651263506000000, 0, 13943658433292301000));
    (5, (694402439334941280000, 2355187894242326000000, 11270890946717489000));
    (5, (2269004109529460000000, 4102182474045730200000, 13457537609106701000));
    (5, (802557460777533900000, 6214302417481605300000, 14249572833167829000));
    (5, (1467999527896572100000, 3245284345717394100000, 12615233412377499000));
    (5, (1571507769824727100000, 5224482189696629800000, 13925471060526960000));
    (5, (2365702993157246000000, 6017546634089557800000, 14187616778776561000));
    (5, (771481586676573270000, 4346575516141162900000, 13383666844795541000));
    (5, (3062936666210729900000, 4908826589037615900000, 13937008626761309000));
    (5, (3822477379524786800000, 5648768149099500100000, 14159147574669319000)) ].
(** lebedev.rs:631-662 *)
Definition table_974 : list (Z * (Z * Z * Z)) :=
  [ (0, (0, 0, 1438294190527431000));
    (2, (0, 0, 11257722882870040000));
    (3, (429296354534134670000, 0, 4948029341949241300));
    (3, (1051426854086404000000, 0, 7357990109125470000));
    (3, (1750024867623087000000, 0, 8889132771304383500));
    (3, (2477653379650257000000, 0, 9888347838921435400));
    (3, (3206567123955956800000, 0, 10532996817094709000));
    (3, (3916520749849983200000, 0, 10927788070145780000));
    (3, (4590825874187624000000, 0, 11143893940632271000));
    (3, (5214563888415860700000, 0, 11237247880515550000));
    (3, (6253170244654199200000, 0, 11252393252438140000));
    (3, (6637926744523170400000, 0, 11261532718159050000));
    (3, (6910410398498301200000, 0, 11302869311238411000));
    (3, (7052907007457760400000, 0, 11349865343639549000));
    (4, (1236686762657990000000, 0, 6823367927109930600));
    (4, (2940777114468387000000, 0, 9454158160447095800));
    (4, (4697753849207649300000, 0, 10744299753856789000));
    (4, (6334563241139566900000, 0, 11293000865691320000));
    (5, (597404861418134180000, 2029128752777523100000, 8436884500901953600));
    (5, (1375760408473636100000, 4602621942484054200000, 10752557204488850000));
    (5, (3391016526336286300000, 5030673999662036400000, 11085772368644620000));
    (5, (1271675191439820000000, 2817606422442133800000, 9566475323783356700));
    (5, (2693120740413512100000, 4331561291720156800000, 10806632507173910000));
    (5, (1419786452601918000000, 6256167358580814200000, 11267971311962951000));
    (5, (670928460073825510000, 3798395216859157300000, 10225687153580609000));
    (5, (705773818325617220000, 5517505421423519700000, 11089602677131080000));
    (5, (2783888477882154900000, 6029619156159187200000, 11227906534357660000));
    (5, (1979578938917407000000, 3589606329589096200000, 10324018471174600000));
    (5, (2087307061103274000000, 5348666438135476500000, 11072493822838539000));
    (5, (4055122137872835800000, 5674997546074372900000, 11217800485199721000)) ].
(** lebedev.rs:663-700 *)
Definition table_1202 : list (Z * (Z * Z * Z)) :=
  [ (0, (0, 0, 1105189233267572000));
    (1, (0, 0, 9205232738090740700));
    (2, (0, 0, 9133159786443561400));
    (3, (371263644965708910000, 0, 3690421898017898800));
    (3, (914006041226222280000, 0, 5603990928680660500));
    (3, (1531077852469905900000, 0, 6865297629282608900));
    (3, (2180928891660612000000, 0, 7720338551145630200));
    (3, (2839874532200175100000, 0, 8301545958894795200));
    (3, (3491177600963764100000, 0, 8686692550179627700));
    (3, (4121431461444309300000, 0, 8927076285846890400));
    (3, (4718993627149126700000, 0, 9060820238568219000));
    (3, (5273145452842337200000, 0, 9119777254940866900));
    (3, (6209475332444018800000, 0, 9128720138604181400));
    (3, (6569722711857291000000, 0, 9130714935691734900));
    (3, (6841788309070142600000, 0, 9152873784554116300));
    (3, (7012604330123630700000, 0, 9187436274321654400));
    (4, (1072382215478166100000, 0, 5176977312965694300));
    (4, (2582068959496968100000, 0, 7331143682101417300));
    (4, (4172752955306717200000, 0, 8463232836379928200));
    (4, (5700366911792502700000, 0, 9031122694253991700));
    (5, (9827986018263946700000, 1771774022615325000000, 6485778453163257300));
    (5, (9624249230326228400000, 2475716463426287900000, 7435030910982368800));
    (5, (9402007994128811500000, 3354616289066488800000, 7998527891839053800));
    (5, (9320822040143201800000, 3173615246611977100000, 8101731497468018400));
    (5, (9043674199393299000000, 4090268427085356800000, 8483389574594330500));
    (5, (8912407560074746500000, 3854291150669224000000, 8556299257311811700));
    (5, (8676435628462707500000, 4932221184851284800000, 8803208679738260300));
    (5, (8581979986041619000000, 4785320675922434800000, 8811048182425719600));
    (5, (8396753624049856400000, 4507422593157063800000, 8850282341265443800));
    (5, (8165288564022188400000, 5632123020762099800000, 9021342299040652600));
    (5, (8015469370783528900000, 5434303569693900200000, 9010091677105086000));
    (5, (7773563069070350600000, 5123518486419871300000, 9022692938426915300));
    (5, (7661621213900393600000, 6394279634749101500000, 9158016174693465400));
    (5, (7553584143533510500000, 6269805509024392000000, 9131578003189435500));
    (5, (7344305757559502800000, 6031161693096309700000, 9107813579482704600));
    (5, (7043837184021765100000, 5693702498468441500000, 9105760258970125800)) ].
(** lebedev.rs:701-744 *)
Definition table_1454 : list (Z * (Z * Z * Z)) :=
  [ (0, (0, 0, 777716074326124670));
    (2, (0, 0, 7557646413004701100));
    (3, (322929066341385430000, 0, 2841633806090617200));
    (3, (803673327146222220000, 0, 4374419127053555200));
    (3, (1354289960531653000000, 0, 5417174740872172300));
    (3, (1938963861114426100000, 0, 6148000891358592700));
    (3, (2537343715011274900000, 0, 6664394485800704500));
    (3, (3135251434752570100000, 0, 7025039356923219600));
    (3, (3721558339375338200000, 0, 7268511789249626700));
    (3, (4286809575195695800000, 0, 7422637534208628700));
    (3, (4822510128282994100000, 0, 7509545035841214200));
    (3, (5320679333566262800000, 0, 7548535057718400900));
    (3, (6172998195394273600000, 0, 7554088969774000700));
    (3, (6510679849127480900000, 0, 7553147174442808400));
    (3, (6777315251687360300000, 0, 7564767653292297400));
    (3, (6963109410648741200000, 0, 7587991808518729700));
    (3, (7058935009831749400000, 0, 7608261832033027200));
    (4, (9955546194091856600000, 0, 4021680447874915900));
    (4, (9734115901794209200000, 0, 5804871793945963700));
    (4, (9275693732388625700000, 0, 6792151955945158900));
    (4, (8568022422795103000000, 0, 7336741211286293900));
    (4, (7623495553719371600000, 0, 7581866300989608500));
    (5, (5707522908892223000000, 4387028039889501200000, 7538257859800742800));
    (5, (5196463388403083100000, 3858908414762616800000, 7483517247053123300));
    (5, (4646337531215351000000, 3301937372343853900000, 7371763661112058900));
    (5, (4063901697557690800000, 2725423573563777200000, 7183448895756933700));
    (5, (3456329466643087200000, 2139510237495249900000, 6895815529822191300));
    (5, (2831395121050331900000, 1555922309786647000000, 6480105801792885900));
    (5, (2197682022925329900000, 989287897968609690000, 5897558896594635800));
    (5, (1564696098650355000000, 459864291067551000000, 5095708849247346100));
    (5, (6027356673721294700000, 3376625140173426000000, 7536906428909754800));
    (5, (5496032320255096500000, 2822301309727988100000, 7472505965575118100));
    (5, (4921707755234567300000, 2248632342592540000000, 7343017132279697700));
    (5, (4309422998598482800000, 1666224723456478900000, 7130871582177445100));
    (5, (3664108182313671700000, 1086964901822169000000, 6817022032112776300));
    (5, (2990189057758436100000, 525198978412008480000, 6380941145604121200));
    (5, (6268724013144998400000, 2297523657550023000000, 7550381377920310200));
    (5, (5707324144834606800000, 1723080607093800100000, 7478646640144802200));
    (5, (5096360901960365100000, 1140238465390513000000, 7335918720601220500));
    (5, (4438729938312456200000, 561152209588253670000, 7110120527658118100));
    (5, (6419978471082389300000, 1164174423140872900000, 7571363978689500800));
    (5, (5817218061802611500000, 579758953144521930000, 7489908329079233500)) ].
(** lebedev.rs:745-795 *)
Definition table_1730 : list (Z * (Z * Z * Z)) :=
  [ (0, (0, 0, 630904943742097630));
    (1, (0, 0, 6398287705571747600));
    (2, (0, 0, 6357185073530719500));
    (3, (286092312619466200000, 0, 2221207162188168100));
    (3, (714255676771152200000, 0, 3475784022286847900));
    (3, (1209199540995559000000, 0, 4350742443589804000));
    (3, (1738673106594378900000, 0, 4978569136522126700));
    (3, (2284645438467733900000, 0, 5435036221998053300));
    (3, (2834807671701511900000, 0, 5765913388219542100));
    (3, (3379680145467339200000, 0, 6001200359226002800));
    (3, (3911355454819536700000, 0, 6162178172717512100));
    (3, (4422860353001403200000, 0, 6265218152438484500));
    (3, (4907781568726056800000, 0, 6323987160974212100));
    (3, (5360006153211468400000, 0, 6350767851540569400));
    (3, (6142105973596603300000, 0, 6354362775297106600));
    (3, (6459300387977503500000, 0, 6352302462706235500));
    (3, (6718056125089224600000, 0, 6358117881417971700));
    (3, (6910888533186253500000, 0, 6373101590310116500));
    (3, (7030467416823251700000, 0, 6390428961368664700));
    (4, (835495116635464610000, 0, 3186913449946575900));
    (4, (2050143009099486000000, 0, 4678028558591711000));
    (4, (3370208290706637200000, 0, 5538829697598625900));
    (4, (4689051484233963100000, 0, 6044475907190476100));
    (4, (5939400424557334000000, 0, 6313575103509012200));
    (5, (1394983311832261000000, 409758116205034270000, 4078626431855630200));
    (5, (1967999180485013900000, 885198739129334780000, 4759933057812725000));
    (5, (2546183732548967200000, 1397680182969819100000, 5268151186413439600));
    (5, (3121281074713874700000, 1929452542226526000000, 5643048560507315600));
    (5, (3685981078502492100000, 2467898337061562000000, 5914501076613072600));
    (5, (4233760321547855900000, 3003104124785409000000, 6104561257874195400));
    (5, (4758671236059245900000, 3526684328175033200000, 6230252860707806000));
    (5, (5255178579796463400000, 4031134861145713200000, 6305618761760795700));
    (5, (5718025633734589200000, 4509426448342350700000, 6343092767597889200));
    (5, (2686927772723414800000, 471132250242324790000, 5176268945737826500));
    (5, (3306006819904809300000, 978448730394269470000, 5564840313313692400));
    (5, (3904906850594983000000, 1505395810025272900000, 5856426671038979900));
    (5, (4479957951904389700000, 2039728156296050100000, 6066386925777091100));
    (5, (5027076848919780300000, 2571529941121106800000, 6208824962234458100));
    (5, (5542087392260216500000, 3092191375815669900000, 6296314297822906600));
    (5, (6020850887375186500000, 3593807506130276000000, 6340423756791859200));
    (5, (4019851409179593900000, 506338993437867100000, 5829627677107342000));
    (5, (4635614567449800000000, 1032422269160612100000, 6048693376081110200));
    (5, (5215860931591574900000, 1566322094006253900000, 6202362317732461300));
    (5, (5758202499099270800000, 2098082827491099000000, 6299005328403779100));
    (5, (6259893683876794900000, 2618824114553390800000, 6347722390609352500));
    (5, (5313795124811890900000, 526324501933855620000, 6203778981238834000));
    (5, (5893317955931994800000, 1061059730982005000000, 6308414671239979400));
    (5, (6426246321215800500000, 1594171564034221100000, 6362706466959498100));
    (5, (6511904367376113400000, 535478953656554000000, 6375414170333232800)) ].
(** lebedev.rs:796-853 *)
Definition table_2030 : list (Z * (Z * Z * Z)) :=
  [ (0, (0, 0, 465603189919743090));
    (2, (0, 0, 5421549195295506900));
    (3, (254083533681434790000, 0, 1778522133346553000));
    (3, (639932280050491550000, 0, 2811325405682796100));
    (3, (1088269469804125000000, 0, 3548896312631459200));
    (3, (1570670798818286900000, 0, 4090310897173363900));
    (3, (2071163932282514000000, 0, 4493286134169964800));
    (3, (2578914044450844000000, 0, 4793728447962723200));
    (3, (3085687558169623000000, 0, 5015415319164264700));
    (3, (3584719706267023900000, 0, 5175127372677937200));
    (3, (4070135594428708800000, 0, 5285522262081019000));
    (3, (4536618626222638200000, 0, 5356832703713961800));
    (3, (4979195686463577200000, 0, 5397914736175170300));
    (3, (5393075111126999200000, 0, 5416899441599929600));
    (3, (6115617676843916300000, 0, 5419308476889938000));
    (3, (6414308435160158700000, 0, 5416936902030596300));
    (3, (6664099412721606900000, 0, 5419544338703163900));
    (3, (6859161771214913300000, 0, 5428983656630974500));
    (3, (6993625593503890500000, 0, 5442286500098193100));
    (3, (7062393387719380100000, 0, 5452250345057300700));
    (4, (747902816834976340000, 0, 2568002497728530200));
    (4, (1848951153969365900000, 0, 3827211700292144900));
    (4, (3059529066581305200000, 0, 4579491561917824100));
    (4, (4285556101021362200000, 0, 5042003969083574200));
    (4, (5468758653496526000000, 0, 5312708889976024500));
    (4, (6565821978343439100000, 0, 5438401790747117400));
    (5, (1253901572367117100000, 368191722643964120000, 3316041873197344200));
    (5, (1775721510383941000000, 798248760721330110000, 3899113567153771300));
    (5, (2305693358216114000000, 1264640966592335000000, 4343343327201308900));
    (5, (2836502845992063300000, 1751585683418956900000, 4679415262318919200));
    (5, (3361794746232589800000, 2247995907632670000000, 4930847981631030700));
    (5, (3875979172264824000000, 2745299257422246200000, 5115031867540091300));
    (5, (4374019316999073800000, 3236373482441117800000, 5245217148457366600));
    (5, (4851275843340022200000, 3714967859436740800000, 5332041499895320900));
    (5, (5303391803806868400000, 4175353646321745000000, 5384583126021542500));
    (5, (5726197380596287400000, 4612084406355461100000, 5411067210798852200));
    (5, (2431520732564863000000, 425804013304395200000, 4259797391468714200));
    (5, (3002096800895869300000, 886942430672272160000, 4604931368460021100));
    (5, (3558554457457431800000, 1368811706510655000000, 4871814878255202100));
    (5, (4097782537048886800000, 1860739985015033000000, 5072242910074885300));
    (5, (4616337666067458200000, 2354235077395853100000, 5217069845235350000));
    (5, (5110707008417874100000, 2842074921347010900000, 5315785966280310500));
    (5, (5577415286163794900000, 3317784414984101800000, 5376833708758905000));
    (5, (6013060431366950000000, 3775299002040700100000, 5408032092069520700));
    (5, (3661596767261781100000, 459936788716459180000, 4842744917904866200));
    (5, (4237633153506580900000, 940489377365442140000, 5048926076188129600));
    (5, (4786328454658452200000, 1431377109091971100000, 5202607980478372700));
    (5, (5305702076789774500000, 1924186388843570100000, 5309932388325742700));
    (5, (5793436224231788300000, 2411590944775189900000, 5377419770895208400));
    (5, (6247069017094747400000, 2886871491583605200000, 5411696331677716700));
    (5, (4874315552535203900000, 480497877495320580000, 5197996293282420100));
    (5, (5427337322059052600000, 971685719936666440000, 5311120836622944700));
    (5, (5943493747246699800000, 1465205839795054900000, 5384309319956951400));
    (5, (6421314033564943200000, 1953579449803574100000, 5421859504051886200));
    (5, (6020628374713979900000, 491637501573810800000, 5390948355046313500));
    (5, (6529222529856880700000, 986162154012700520000, 5433312705027845400)) ].
(** lebedev.rs:854-919 *)
Definition table_2354 : list (Z * (Z * Z * Z)) :=
  [ (0, (0, 0, 392261627066529200));
    (1, (0, 0, 4703831750854424000));
    (2, (0, 0, 4678202801282136200));
    (3, (229002464653058900000, 0, 1437832228979900000));
    (3, (577908665227128420000, 0, 2303572493577644100));
    (3, (986310357637598390000, 0, 2933110752447454200));
    (3, (1428155792982185000000, 0, 3402905998359838200));
    (3, (1888978116601463000000, 0, 3759138466870371800));
    (3, (2359091682970209900000, 0, 4030638447899797800));
    (3, (2831228833706170800000, 0, 4236591432242211200));
    (3, (3299495857966692800000, 0, 4390522656946745900));
    (3, (3758840802660796100000, 0, 4502523466626247100));
    (3, (4204751831009480000000, 0, 4580577727783541100));
    (3, (4633068518751051200000, 0, 4631391616615898800));
    (3, (5039849474507313000000, 0, 4660928953698675900));
    (3, (5421265793440747100000, 0, 4674751807936953000));
    (3, (6092660230557309700000, 0, 4676414903932919800));
    (3, (6374654204984868700000, 0, 4674086492347870200));
    (3, (6615136472609891600000, 0, 4674928539483207100));
    (3, (6809487285958126800000, 0, 4680748979686447200));
    (3, (6952980021665196000000, 0, 4690449806389040100));
    (3, (7041245497695399800000, 0, 4699877075860817900));
    (4, (674403308830606450000, 0, 2099942281069176000));
    (4, (1678684485334165900000, 0, 3172269150712804000));
    (4, (2793559049539612900000, 0, 3832051358546523000));
    (4, (3935264218057639200000, 0, 4252193818146985200));
    (4, (5052629268232558000000, 0, 4513807963754999700));
    (4, (6107905315437530700000, 0, 4657797469114177900));
    (5, (1135081039843524000000, 333195488466258780000, 2733362800522836100));
    (5, (1612866626099377900000, 724716746543653810000, 3235485368463558900));
    (5, (2100786550168204900000, 1151539110849745000000, 3624908726013452700));
    (5, (2592282009459941900000, 1599491097143677100000, 3925540070712827800));
    (5, (3081740561320203100000, 2058699956028027000000, 4156129781116234800));
    (5, (3564289781578163800000, 2521624953502911200000, 4330644984623263100));
    (5, (4035587288240702900000, 2982090785797674200000, 4459677725921311900));
    (5, (4491671196373903100000, 3434762087235733200000, 4551593004456795200));
    (5, (4928854782917488900000, 3874831357203437100000, 4613341462749917800));
    (5, (5343646791958988100000, 4297814821746925900000, 4651019618269805700));
    (5, (5732683216530990400000, 4699402260943537100000, 4670249536100625200));
    (5, (2214131583218985900000, 387360204064389480000, 3549555576441708100));
    (5, (2741796504750070900000, 808949625690201230000, 3856108245249009800));
    (5, (3259797439149484900000, 1251732177620872000000, 4098622845756882000));
    (5, (3765441148826890700000, 1706260286403185100000, 4286328604268950100));
    (5, (4255773574530558000000, 2165115147300407900000, 4427802198993945200));
    (5, (4727795117058429800000, 2622089812225258900000, 4530473511488560700));
    (5, (5178546895819011700000, 3071721431296201000000, 4600805475703138300));
    (5, (5605141192097460300000, 3508998998801137700000, 4644599059958016800));
    (5, (6004763319352511800000, 3929160876166931100000, 4667274455712508000));
    (5, (3352842634946949200000, 420256345728801870000, 4069360518020355800));
    (5, (3891971629814670000000, 861430975887085000000, 4260442819919195000));
    (5, (4409875565542281100000, 1314500879380000900000, 4408678508029063200));
    (5, (4904893058592483800000, 1772189657383858900000, 4518748115548597200));
    (5, (5375056138769549500000, 2228277110050294100000, 4595564875375116300));
    (5, (5818255708669969300000, 2677179935014386000000, 4643988774315846200));
    (5, (6232334858144958900000, 3113675035544165000000, 4668827491646945900));
    (5, (4489485354492058200000, 440916237836817410000, 4400541823741972900));
    (5, (5015136875933150500000, 893900991774848890000, 4514512890193796800));
    (5, (5511300550512623400000, 1351806029383365000000, 4596198627347549200));
    (5, (5976720409857999600000, 1808370355053196000000, 4648659016801780800));
    (5, (6409956378989354300000, 2257852192301602100000, 4675502017157673100));
    (5, (5581222330827514400000, 453217342163715970000, 4598494476455523200));
    (5, (6074705984161694600000, 911748803184031370000, 4654916955152047900));
    (5, (6532272537379032500000, 1369294213140155000000, 4684709779505137200));
    (5, (6594761494500487300000, 458990148727558280000, 4691445539106986200)) ].
(** lebedev.rs:920-993 *)
Definition table_2702 : list (Z * (Z * Z * Z)) :=
  [ (0, (0, 0, 299867514988816110));
    (2, (0, 0, 4077860529495354800));
    (3, (206556253881870320000, 0, 1185349192520667100));
    (3, (525091817302237930000, 0, 1913408643425751000));
    (3, (899348008203837560000, 0, 2452886577209896800));
    (3, (1306023924436018900000, 0, 2862408183288702100));
    (3, (1732060388531418100000, 0, 3178032258257356800));
    (3, (2168727084820248900000, 0, 3422945667633690200));
    (3, (2609528309173586000000, 0, 3612790520235921900));
    (3, (3049252927938951900000, 0, 3758638229818520900));
    (3, (3483484138084403900000, 0, 3868711798859953200));
    (3, (3908321549106406100000, 0, 3949429933189938000));
    (3, (4320210071894813900000, 0, 4006068107541156100));
    (3, (4715824795890052900000, 0, 4043192149672723200));
    (3, (5091984794078453500000, 0, 4064947495808078300));
    (3, (5445580145650803500000, 0, 4075245619813152000));
    (3, (6072575796841768200000, 0, 4076423540893565700));
    (3, (6339484505755802500000, 0, 4074280862251554800));
    (3, (6570718257486958300000, 0, 4074163756012244000));
    (3, (6762557330090709400000, 0, 4077647795071246100));
    (3, (6911161696923789900000, 0, 4084517552782530200));
    (3, (7012841911659960500000, 0, 4092468459224051900));
    (3, (7064559272410020400000, 0, 4097872687240906100));
    (4, (612355498989476530000, 0, 1738986811745028100));
    (4, (1533070348312393100000, 0, 2659616045280191100));
    (4, (2563902605244206000000, 0, 3240596008171533200));
    (4, (3629346991663360800000, 0, 3621195964432943200));
    (4, (4683949968987538000000, 0, 3868838330760539200));
    (4, (5694479240657952500000, 0, 4018911532693111200));
    (4, (6634465430993955500000, 0, 4089929432983252000));
    (5, (1033958573552305100000, 303454400906358400000, 2279907527706409000));
    (5, (1473521412414395000000, 661880304424713460000, 2715205490578896800));
    (5, (1924552158705966900000, 1054431128987714900000, 3057917896703976200));
    (5, (2381094362890328100000, 1468263551238858100000, 3326913052452554800));
    (5, (2838121707936759900000, 1894486108187886100000, 3537334711890036800));
    (5, (3291323133373415000000, 2326374238761579100000, 3700567500783128900));
    (5, (3736896978741460200000, 2758485808485767700000, 3825245372589121900));
    (5, (4171406040760012900000, 3186179331996921200000, 3918125171518296200));
    (5, (4591677985256915100000, 3605329796303793900000, 3984720419937578900));
    (5, (4994733831718418100000, 4012147253586508800000, 4029746003338210700));
    (5, (5377731830445096100000, 4403050025570692200000, 4057428632156626900));
    (5, (5737917830001331200000, 4774565904277483000000, 4071719274114857200));
    (5, (2027323586271389000000, 354412250497614730000, 2990236950664119100));
    (5, (2516942375187273300000, 741830438864632820000, 3262951734212877900));
    (5, (3000227995257180900000, 1150502745727186000000, 3482634608242413100));
    (5, (3474806691046342100000, 1571963371209363900000, 3656596681700891900));
    (5, (3938103180359209300000, 1999631877247100000000, 3791740467794217800));
    (5, (4387519590455702900000, 2428073457846534900000, 3894034450156905000));
    (5, (4820503960077787100000, 2852575132906154900000, 3968600245508370800));
    (5, (5234573778475101200000, 3268884208674638900000, 4019931351420050200));
    (5, (5627318647235282100000, 3673033321675939200000, 4052108801278598900));
    (5, (5996390607156953900000, 4061211551830289900000, 4068978613940934000));
    (5, (3084780753791946900000, 386012552310005880000, 3454275351319704000));
    (5, (3589988275920222800000, 792893898710486660000, 3629963537007920000));
    (5, (4078628415881973000000, 1212614643030087000000, 3770187233889872900));
    (5, (4549287258889734800000, 1638770827382692900000, 3878608613694378200));
    (5, (5000278512957279100000, 2065965798260175900000, 3959065270221274000));
    (5, (5429785044928199200000, 2489436378852235000000, 4015286975463570000));
    (5, (5835939850491711500000, 2904811368946890700000, 4050866785614716900));
    (5, (6216870353444855500000, 3307941957666609100000, 4069320185051912900));
    (5, (4151104662709090800000, 406482914605255370000, 3760120964062763000));
    (5, (4649804275009217800000, 825842454729475570000, 3870969564418064200));
    (5, (5124695757009661800000, 1251841962027288900000, 3955287790534055200));
    (5, (5574711100606224400000, 1679107505976331100000, 4015361911302668000));
    (5, (5998597333287226700000, 2102805057358715100000, 4053836986719548100));
    (5, (6395007148516600500000, 2518418087774106900000, 4073578673299116800));
    (5, (5188456224746251800000, 419432167607751770000, 3954628379231406100));
    (5, (5664190707942777800000, 845766155192149840000, 4017645508847530000));
    (5, (6110464353283152600000, 1273652932519396000000, 4059030348651292800));
    (5, (6526430302051563500000, 1698173239076354000000, 4080565809484880000));
    (5, (6167551880377547500000, 426639885154886380000, 4063018753664651000));
    (5, (6607195418355382700000, 855192581423834950000, 4087191292799670900)) ].
(** lebedev.rs:994-1076 *)
Definition table_3074 : list (Z * (Z * Z * Z)) :=
  [ (0, (0, 0, 259909595375473390));
    (1, (0, 0, 3603134089687541200));
    (2, (0, 0, 3586067974412446900));
    (3, (188610851872339190000, 0, 983152847438588050));
    (3, (480021724462530300000, 0, 1605023107954449900));
    (3, (824492205839724160000, 0, 2072200131464098900));
    (3, (1200408362484023000000, 0, 2431297618814187100));
    (3, (1595773530809964900000, 0, 2711819064496707000));
    (3, (2002635973434064000000, 0, 2932762038321115900));
    (3, (2415127590139982100000, 0, 3107032514197368200));
    (3, (2828584158458477000000, 0, 3243808058921213000));
    (3, (3239091015338138000000, 0, 3349899091374030000));
    (3, (3643225097962193800000, 0, 3430580688505217800));
    (3, (4037897083691802100000, 0, 3490124109290342900));
    (3, (4420247515194126700000, 0, 3532148948561955100));
    (3, (4787572538464938100000, 0, 3559862669062832900));
    (3, (5137265251275233700000, 0, 3576224317551411200));
    (3, (5466764056654610500000, 0, 3584050533086075900));
    (3, (6054859420813535300000, 0, 3584903581373224200));
    (3, (6308106701764562000000, 0, 3582991879040586000));
    (3, (6530369230179583500000, 0, 3582371187963124900));
    (3, (6718609524611157700000, 0, 3584353631122349900));
    (3, (6869676499894013000000, 0, 3589120166517785000));
    (3, (6980467077240748400000, 0, 3595445704531600800));
    (3, (7048241721250522200000, 0, 3600943557111074200));
    (4, (559110522205823190000, 0, 1456447096742039000));
    (4, (1407384078513916100000, 0, 2252370188283782100));
    (4, (2364035438976309100000, 0, 2766135443474897100));
    (4, (3360602737818170200000, 0, 3110729491500851000));
    (4, (4356292630054665000000, 0, 3342506712303391300));
    (4, (5321569415256174300000, 0, 3491981834026860000));
    (4, (6232956305040554500000, 0, 3576003604348932100));
    (5, (946987008683846940000, 277874838730946990000, 1921921305788563900));
    (5, (1353170300568141100000, 607656987862836420000, 2301458216495632100));
    (5, (1771679481726077000000, 970307276271104020000, 2604248549522892900));
    (5, (2197066664231751000000, 1354112458524761900000, 2845275425870697000));
    (5, (2624783557374926700000, 1750996479744099900000, 3036870897974839800));
    (5, (3050969521214442200000, 2154896907449802000000, 3188414832298065800));
    (5, (3472252637196021100000, 2560954625740152200000, 3307046414722089300));
    (5, (3885610219026359700000, 2965070050624096200000, 3398330969031360100));
    (5, (4288273776062764800000, 3363641488734496800000, 3466757899705372900));
    (5, (4677662471302948000000, 3753400029836788100000, 3516095923230053800));
    (5, (5051333589553359500000, 4131297522144286000000, 3549645184048486000));
    (5, (5406942145810491600000, 4494423776081795100000, 3570415969441391900));
    (5, (5742204122576457500000, 4839938958841502000000, 3581251798496118100));
    (5, (1865407027225188000000, 325914485107079570000, 2543491329913348100));
    (5, (2321186453689431900000, 683567950529734290000, 2786711051330776200));
    (5, (2773159142523882200000, 1062284864451989000000, 2985552361083678700));
    (5, (3219200192237253700000, 1454404409323047100000, 3145867929154039100));
    (5, (3657032593944029000000, 1854018282582509900000, 3273290662067608900));
    (5, (4084376778363622000000, 2256297412014750000000, 3372705511943501200));
    (5, (4499004945751427000000, 2657104425000896300000, 3448274437851510100));
    (5, (4898758141326334800000, 3052755487631557100000, 3503592783048582800));
    (5, (5281547442266308900000, 3439863920645422900000, 3541854792663162200));
    (5, (5645346989813991900000, 3815229456121914100000, 3565995517909427800));
    (5, (5988181252159847600000, 4175752420966734000000, 3578802078302898000));
    (5, (2850425424471603200000, 356214950986253610000, 2958644592860982100));
    (5, (3324619433027876100000, 733031888687109560000, 3119548129116835300));
    (5, (3785848333076282100000, 1123226296008472000000, 3250745225005984100));
    (5, (4232891028562115200000, 1521084193337708100000, 3355153415935208200));
    (5, (4664287050829721800000, 1921844459223610000000, 3435847568549328100));
    (5, (5078458493735725800000, 2321360989678303000000, 3495786831622488000));
    (5, (5473779816204179500000, 2715886486360519800000, 3537767805534621200));
    (5, (5848617133811375700000, 3101924707571355200000, 3564459815421428000));
    (5, (6201348281584887500000, 3476121052890973100000, 3578464061225468200));
    (5, (3852191185387871000000, 376322488003510770000, 3239748762836212300));
    (5, (4325025061073423100000, 765958193563713450000, 3345491784174286800));
    (5, (4778486229734489900000, 1163381306083900000000, 3429126177301782200));
    (5, (5211663693008999900000, 1563890598752898900000, 3492420343097421000));
    (5, (5623469504853703100000, 1963320810149200000000, 3537399050235256800));
    (5, (6012718188659246200000, 2357847407258738000000, 3566209152659171900));
    (5, (6378179206390116600000, 2743846121244060100000, 3581084321919782200));
    (5, (4836936460214534300000, 389590261073902430000, 3426522117591512100));
    (5, (5293792562683796700000, 787124681931263980000, 3491848770121378800));
    (5, (5726281253100032900000, 1187963808202981000000, 3539318235231476100));
    (5, (6133658776169067500000, 1587914708061787000000, 3570231438458693900));
    (5, (6515085491865306700000, 1983058575227646100000, 3586207335051714000));
    (5, (5778692716064975900000, 397720968979154220000, 3541196205164024900));
    (5, (6207904288086192300000, 799015759298115220000, 3574296911573953000));
    (5, (6608688171046801500000, 1199671308754309000000, 3591993279818963000));
    (5, (6656263089489129500000, 401595595780596880000, 3595855034661997100)) ].
(** lebedev.rs:1077-1168 *)
Definition table_3470 : list (Z * (Z * Z * Z)) :=
  [ (0, (0, 0, 204038273082632990));
    (2, (0, 0, 3178149703889543900));
    (3, (172142083290623310000, 0, 828811512807611060));
    (3, (440887537498177020000, 0, 1360883192522953900));
    (3, (759468081387868060000, 0, 1766854454542662100));
    (3, (1108335359204799000000, 0, 2083153161230153100));
    (3, (1476517054388567000000, 0, 2333279544657158000));
    (3, (1856731870860615100000, 0, 2532809539930247000));
    (3, (2243634099428820900000, 0, 2692472184211157900));
    (3, (2633006881662727200000, 0, 2819949946811884700));
    (3, (3021340904916283200000, 0, 2920953593973030200));
    (3, (3405594048030088900000, 0, 2999889782948352300));
    (3, (3783044434007372100000, 0, 3060292120496901800));
    (3, (4151194767407910300000, 0, 3105109167522191800));
    (3, (4507705766443256800000, 0, 3136902387550311900));
    (3, (4850346056573187100000, 0, 3157984652454632000));
    (3, (5176950817792469500000, 0, 3170516518425421800));
    (3, (5485384240820988500000, 0, 3176568425633755000));
    (3, (6039117238943307900000, 0, 3177198411207061800));
    (3, (6279956655573113400000, 0, 3175519492394732800));
    (3, (6493636169568951500000, 0, 3174654952634755900));
    (3, (6677644117704504300000, 0, 3175676415467654100));
    (3, (6829368572115623900000, 0, 3178923417835409900));
    (3, (6946195818184121000000, 0, 3183788287531908800));
    (3, (7025711542057026000000, 0, 3188755151918806800));
    (3, (7066004767140119400000, 0, 3191916889313849000));
    (4, (513253768994606230000, 0, 1231779611744508000));
    (4, (1297994661331224900000, 0, 1924661373839880000));
    (4, (2188852049401307000000, 0, 2380881867403423900));
    (4, (3123174824903456900000, 0, 2693100663037885000));
    (4, (4064037620738195100000, 0, 2908673382834365700));
    (4, (4984958396944781900000, 0, 3053914619381534900));
    (4, (5864975046021364500000, 0, 3143916684147777000));
    (4, (6686711634580174700000, 0, 3187042244055363100));
    (5, (871573878083594930000, 255717523336757810000, 1635219535869789900));
    (5, (1248383123134007000000, 560482338337668080000, 1968109917696070100));
    (5, (1638062693383378100000, 896856860190076430000, 2236754342249974100));
    (5, (2035586203373175900000, 1254086651976278900000, 2453186687017180900));
    (5, (2436798975293774100000, 1624780150162012100000, 2627551791580541000));
    (5, (2838207507773806100000, 2003422342683207900000, 2767654860152219900));
    (5, (3236787502217691700000, 2385628026255262900000, 2879467027765895000));
    (5, (3629849554840691200000, 2767731148783578200000, 2967639918918702000));
    (5, (4014948081992086900000, 3146542308245309200000, 3035900684660351000));
    (5, (4389818379260225200000, 3519196415895087800000, 3087338237298308200));
    (5, (4752331143674377000000, 3883050984023653800000, 3124608838860167100));
    (5, (5100457318374017600000, 4235613423908649000000, 3150084294226743200));
    (5, (5432238388954867500000, 4574484717196220000000, 3165958398598401800));
    (5, (5745758685072441800000, 4897311639255523800000, 3174320440957371900));
    (5, (1723981437592808900000, 301063059788110490000, 2182188909812599100));
    (5, (2149553257844596900000, 632603155420469470000, 2399727933921444900));
    (5, (2573256081247422000000, 984856698025863150000, 2579796133514651900));
    (5, (2993163751238106000000, 1350835952384266100000, 2727114052623534900));
    (5, (3407238005148000000000, 1725184055442181000000, 2846327656281354800));
    (5, (3813454978483263900000, 2103559279730725100000, 2941491102051333800));
    (5, (4209848104423343200000, 2482278774554860000000, 3016049492136106700));
    (5, (4594519699996300100000, 2858099509982883200000, 3072949726175647800));
    (5, (4965640166185930100000, 3228075659915428100000, 3114768142886459900));
    (5, (5321441655571561600000, 3589459907204151100000, 3143823673666223000));
    (5, (5660208438582166000000, 3939630088864309900000, 3162269764661535000));
    (5, (5980264315964364300000, 4276029922949088900000, 3172164663759821000));
    (5, (2644215852350733100000, 330093942907255180000, 2554575398967435300));
    (5, (3090113743443063100000, 680388765007850090000, 2701704069135677000));
    (5, (3525871079197808200000, 1044326136206709000000, 2823693413468939800));
    (5, (3950418005354028900000, 1416751597517678900000, 2922898463214288900));
    (5, (4362475663430163100000, 1793408610504821100000, 3001829062162428000));
    (5, (4760661812145853800000, 2170630750175721900000, 3062890864542952800));
    (5, (5143551042512103400000, 2545145157815806900000, 3108328279264745900));
    (5, (5509709026935597500000, 2913940101706600800000, 3140243146201244800));
    (5, (5857711030329427700000, 3274169910910704800000, 3160638030977130100));
    (5, (6186149917404392100000, 3623081329317264800000, 3171462882206275200));
    (5, (3586894569557064200000, 349735438645003980000, 2812388416031796200));
    (5, (4035266610019441200000, 712973673975709490000, 2912137500288044900));
    (5, (4467775312332509800000, 1084758620193165000000, 2993241256502206000));
    (5, (4883638346608543100000, 1460915689241772100000, 3057101738983821800));
    (5, (5281908348434600800000, 1837790832369979900000, 3105319326251432000));
    (5, (5661542687149311300000, 2212075390874020900000, 3139565514428167000));
    (5, (6021450102031451500000, 2580682841160985000000, 3161543006806366100));
    (5, (6360520783610049700000, 2940656362094121200000, 3172985960613294000));
    (5, (4521611065087196000000, 363105536586700170000, 2989400336901431000));
    (5, (4959365651560963000000, 734831846848434940000, 3054555883947676900));
    (5, (5376815804038283000000, 1111087643812648000000, 3104764960807702300));
    (5, (5773314480243767500000, 1488226085145407900000, 3141015825977616000));
    (5, (6148113245575056500000, 1862892274135151100000, 3164520621159896000));
    (5, (6500407462842380200000, 2231909701714456000000, 3176652305912204000));
    (5, (5425151448707212800000, 371820130611894420000, 3105097161023939000));
    (5, (5841860556907930700000, 748361633506734600000, 3143014117890550200));
    (5, (6234632186851499800000, 1125990834266120000000, 3168172866287200000));
    (5, (6602934551848842500000, 1501303813157619000000, 3181401865570968200));
    (5, (6278573968375105200000, 376755993024572020000, 3170663659156037100));
    (5, (6665611711264577400000, 754844330136015820000, 3185447944625510100)) ].
(** lebedev.rs:1169-1270 *)
Definition table_3890 : list (Z * (Z * Z * Z)) :=
  [ (0, (0, 0, 180739525219691990));
    (1, (0, 0, 2848008782238827100));
    (2, (0, 0, 2836065837530580900));
    (3, (158787641985835210000, 0, 701314926667381580));
    (3, (406919359375120600000, 0, 1162798021956766000));
    (3, (702588811525799720000, 0, 1518728583972104900));
    (3, (1027495450028704000000, 0, 1798796108216934100));
    (3, (1371457730893425900000, 0, 2022593385972784900));
    (3, (1727758532671953000000, 0, 2203093105575463900));
    (3, (2091492038929037000000, 0, 2349294234299855100));
    (3, (2458813281751915100000, 0, 2467682058747002800));
    (3, (2826545859450065900000, 0, 2563092683572223800));
    (3, (3191957291799622000000, 0, 2639253896763318200));
    (3, (3552621469299577800000, 0, 2699137479265108100));
    (3, (3906329503406230100000, 0, 2745196420166739100));
    (3, (4251028614093030900000, 0, 2779529197397593300));
    (3, (4584777520111870100000, 0, 2803996086684265000));
    (3, (4905711358710193000000, 0, 2820302356715842000));
    (3, (5212011669847385100000, 0, 2830056747491068100));
    (3, (5501878488737994600000, 0, 2834808950776839200));
    (3, (6025037877479342300000, 0, 2835282339078929100));
    (3, (6254572689549016100000, 0, 2833819267065799900));
    (3, (6460107179528248300000, 0, 2832858336906783800));
    (3, (6639541138154251300000, 0, 2833268235451243800));
    (3, (6790688515667494500000, 0, 2835432677029252900));
    (3, (6911338580371512200000, 0, 2839091722743049000));
    (3, (6999385956126490400000, 0, 2843308178875841100));
    (3, (7053037748656896300000, 0, 2846703550533845800));
    (4, (473222438718011520000, 0, 1051193406971900000));
    (4, (1202100529326803100000, 0, 1657871838796973900));
    (4, (2034304820664855100000, 0, 2064648113714232100));
    (4, (2912285643573002100000, 0, 2347942745819741000));
    (4, (3802361792726767800000, 0, 2547775326597726000));
    (4, (4680598511056146000000, 0, 2686876684847025300));
    (4, (5528151052155598800000, 0, 2778665755515866800));
    (4, (6329386307803041000000, 0, 2830996616782929200));
    (5, (805651665136906950000, 236345468400312380000, 1403063340168372000));
    (5, (1156476077139388900000, 519129163254593570000, 1696504125939477000));
    (5, (1520473382760421100000, 832271573699451960000, 1935787242745389900));
    (5, (1892986699745931000000, 1165855667993712000000, 2130614510521968000));
    (5, (2270194446777792100000, 1513077167409503900000, 2289381265931048000));
    (5, (2648908185093272700000, 1868882025807858900000, 2418630292816185900));
    (5, (3026389259574136000000, 2229277629776224000000, 2523400495631192700));
    (5, (3400220296151383900000, 2590951840746235100000, 2607623973449604800));
    (5, (3768217953335509800000, 2951047291750846800000, 2674441032689209000));
    (5, (4128372900921883900000, 3307019714169929800000, 2726432360343356200));
    (5, (4478807131815629700000, 3656544101087633700000, 2765787685924545300));
    (5, (4817742034089256800000, 3997448951939695000000, 2794428690642224100));
    (5, (5143472814653343700000, 4327667110812024000000, 2814099002062894900));
    (5, (5454346213905649800000, 4645196123532293100000, 2826429531578993900));
    (5, (5748739313170252400000, 4948063555703344800000, 2832983542550884000));
    (5, (1599598738286341900000, 279235759004898480000, 1886695565284976100));
    (5, (1998097412500951000000, 587714103813906510000, 2081867882748233900));
    (5, (2396228952566202000000, 916457391469137770000, 2245148680600796100));
    (5, (2792228341097746100000, 1259049641962687000000, 2380370491511871900));
    (5, (3184251107546741100000, 1610594823400863000000, 2491398041852455200));
    (5, (3570481164426244100000, 1967151653460897900000, 2581632405881229900));
    (5, (3949164710492144000000, 2325404606175167900000, 2653965506227416700));
    (5, (4318617293970503100000, 2682461141151438700000, 2710857216747087200));
    (5, (4677221009931678000000, 3035720116011972900000, 2754434093903659000));
    (5, (5023417939270955500000, 3382781859197439000000, 2786579932519380300));
    (5, (5355701836636127500000, 3721383065625942200000, 2809011080679474000));
    (5, (5672608451328771100000, 4049346360466055100000, 2823336184560986800));
    (5, (5972704202540162200000, 4364538098633802300000, 2831101175806308800));
    (5, (2461687022333596000000, 307042316683336790000, 2221679970354546100));
    (5, (2881774566286831000000, 633803466928188480000, 2356185734270703100));
    (5, (3293963604116977900000, 974286248706794090000, 2469228344805589900));
    (5, (3697303822241376800000, 1323799532282290100000, 2562726348642046000));
    (5, (4090663023135127100000, 1678497018129336000000, 2638756726753027800));
    (5, (4472819355411711800000, 2035095105326114000000, 2699311157390861800));
    (5, (4842513377231437200000, 2390692566672091000000, 2746233268403836900));
    (5, (5198477629962927600000, 2742649818076148800000, 2781225674454771100));
    (5, (5539453011883145300000, 3088503806580094000000, 2805881254045684200));
    (5, (5864196762401251400000, 3425904245906614100000, 2821719877004912800));
    (5, (6171484466668389900000, 3752562294789468200000, 2830222502333123800));
    (5, (3350337830565727200000, 326158993463474680000, 2457995956744870000));
    (5, (3775773224758284300000, 665843892808157260000, 2551474407503706100));
    (5, (4188155229848973300000, 1014565797157954000000, 2629065335195311100));
    (5, (4586805892009344100000, 1368573320843821900000, 2691900449925074800));
    (5, (4970895714224234900000, 1724614851951608000000, 2741275485754275800));
    (5, (5339505133960746900000, 2079779381416412000000, 2778530970122595000));
    (5, (5691665792531439600000, 2431385788322288100000, 2805010567646740700));
    (5, (6026387682680377500000, 2776901883049853200000, 2822055834031039800));
    (5, (6342676150163306700000, 3113881356386631900000, 2831016901243472800));
    (5, (4237951119537067300000, 339487784866435090000, 2624474901131803100));
    (5, (4656918683234929100000, 688021955629144750000, 2688034163039376900));
    (5, (5058857069185980200000, 1041946859721635000000, 2738932751287636200));
    (5, (5443204666713995500000, 1398039738736393000000, 2777944791242523100));
    (5, (5809298813759742300000, 1753373381196154900000, 2806011661660986800));
    (5, (6156416039447127900000, 2105215793514010100000, 2824181456597459800));
    (5, (6483801351066603700000, 2450953312157050900000, 2833585216577827700));
    (5, (5103616577251688400000, 348556064380071900000, 2738165236962878000));
    (5, (5506738792580681000000, 702630863151203350000, 2778365208203180300));
    (5, (5889573040995291800000, 1059035061296403100000, 2807852940418966000));
    (5, (6251641589516929700000, 1414823925236025900000, 2827245949674705100));
    (5, (6592414921570177700000, 1767207908214530100000, 2837342344829827900));
    (5, (5930314017533383500000, 354218933956167230000, 2809233907610981000));
    (5, (6309812253390174600000, 710957404036954840000, 2829930809742693800));
    (5, (6666296011353229900000, 1067259792282730000000, 2841097874111478900));
    (5, (6703715271049921500000, 356945526882080920000, 2843455206008783000)) ].
(** lebedev.rs:1271-1382 *)
Definition table_4334 : list (Z * (Z * Z * Z)) :=
  [ (0, (0, 0, 144906302253788300));
    (2, (0, 0, 2546377329828423900));
    (3, (146289615183101300000, 0, 601843296108749630));
    (3, (376984081249313870000, 0, 1002286583263673000));
    (3, (652470190409689120000, 0, 1315222931028093000));
    (3, (956054341613464810000, 0, 1564213746876723900));
    (3, (1278335898929197900000, 0, 1765118841507736100));
    (3, (1613096104466031100000, 0, 1928737099311080000));
    (3, (1955806225745370900000, 0, 2062658534263269900));
    (3, (2302935218498028100000, 0, 2172395445953787100));
    (3, (2651584344113027100000, 0, 2262076188876047100));
    (3, (2999276825183209100000, 0, 2334885699462397100));
    (3, (3343828669718798000000, 0, 2393355273179203100));
    (3, (3683265013750518000000, 0, 2439559200468863000));
    (3, (4015763206518108100000, 0, 2475251866060002000));
    (3, (4339612026399770100000, 0, 2501965558158773200));
    (3, (4653180651114581800000, 0, 2521081407925925000));
    (3, (4954893331080803000000, 0, 2533881002388080900));
    (3, (5243207068924929900000, 0, 2541582900848261000));
    (3, (5516590479041704200000, 0, 2545365737525860000));
    (3, (6012371927804176500000, 0, 2545726993066798900));
    (3, (6231574466449818500000, 0, 2544456197465555100));
    (3, (6429416514181270900000, 0, 2543481596881063800));
    (3, (6604124272943594500000, 0, 2543506451429194200));
    (3, (6753851470408249700000, 0, 2544905675493763200));
    (3, (6876717970626160500000, 0, 2547611407344429200));
    (3, (6970895061319234400000, 0, 2551060375448869100));
    (3, (7034746912553310200000, 0, 2554291933816039100));
    (3, (7067017217542295200000, 0, 2556255710686343200));
    (4, (438222350113112310000, 0, 904133969511819570));
    (4, (1117474077400006000000, 0, 1438426330079022100));
    (4, (1897153252911439900000, 0, 1802523089820518000));
    (4, (2724023009910330800000, 0, 2060052290565496000));
    (4, (3567163308709901900000, 0, 2245002248967466100));
    (4, (4404784483028086900000, 0, 2377059847731150000));
    (4, (5219833154161410700000, 0, 2468118955882524800));
    (4, (5998179868977553400000, 0, 2525410872966528200));
    (4, (6727803154548222000000, 0, 2553101409933396900));
    (5, (747656394316608550000, 219316850946118490000, 1212879733668632000));
    (5, (1075341482001415900000, 482641928153388700000, 1472872881270931100));
    (5, (1416344885203259000000, 775119188357574210000, 1686846601010827900));
    (5, (1766325315388586100000, 1087558139247680100000, 1862698414660208100));
    (5, (2121744174481514100000, 1413661374253096000000, 2007430956991861000));
    (5, (2479669443408145100000, 1748768214258880100000, 2126568125394796100));
    (5, (2837600452294112800000, 2089216406612073000000, 2224394603372113000));
    (5, (3193344933193983900000, 2431987685545972100000, 2304264522673134900));
    (5, (3544935442438745300000, 2774497054377769700000, 2368854288424087100));
    (5, (3890571932288153800000, 3114460356156915100000, 2420352089461772100));
    (5, (4228581214259090100000, 3449806851913012100000, 2460597113081295000));
    (5, (4557387211304052000000, 3778618641248255900000, 2491181912257687200));
    (5, (4875487950541643200000, 4099086391698977800000, 2513528194205856800));
    (5, (5181436529962997200000, 4409474925853972800000, 2528943096693220100));
    (5, (5473824095600661200000, 4708094517711290900000, 2538660368488136000));
    (5, (5751263398976174100000, 4993275140354637200000, 2543868648299021900));
    (5, (1489515746840028000000, 259938199326701720000, 1642595537825183100));
    (5, (1863656444351767000000, 547928653246219020000, 1818246659849308000));
    (5, (2238602880356347900000, 855676325142525340000, 1966565649492420100));
    (5, (2612723375728159800000, 1177257802267011000000, 2090677905657991100));
    (5, (2984332990206189900000, 1508168456192700000000, 2193820409510503900));
    (5, (3351786584663333200000, 1844801892177727100000, 2278870827661927900));
    (5, (3713505522209120100000, 2184145236087597900000, 2348283192282089900));
    (5, (4067981098954662800000, 2523590641486229100000, 2404139755581477000));
    (5, (4413769993687534100000, 2860812976901372900000, 2448227407760734100));
    (5, (4749487182516394200000, 3193686757808996100000, 2482110455592572900));
    (5, (5073798105075425500000, 3520226949547601800000, 2507192397774103300));
    (5, (5385410448878653600000, 3838544395667890000000, 2524765968534879800));
    (5, (5683065353670530000000, 4146810037640962800000, 2536052388539424900));
    (5, (5965527620663509900000, 4443224094681120800000, 2542230588033068200));
    (5, (2299227700856157100000, 286575766405758390000, 1944817013047895900));
    (5, (2695752998553266900000, 592342168448599310000, 2067862362746635000));
    (5, (3086178716611389100000, 911781777605771560000, 2172440734649114100));
    (5, (3469649871659076800000, 1240593814082605100000, 2260125991723422900));
    (5, (3845153566319655100000, 1575272058259175000000, 2332655008689522900));
    (5, (4211600033403215000000, 1912845163525412900000, 2391699681532457900));
    (5, (4567867834329881700000, 2250710177858170900000, 2438801528273928100));
    (5, (4912829319232061000000, 2586521303440910100000, 2475370504260665200));
    (5, (5245364793303811700000, 2918112242865407200000, 2502707235640573900));
    (5, (5564369788915756200000, 3243439239067890100000, 2522031701054241000));
    (5, (5868757697775287600000, 3560536787835351100000, 2534511269978783800));
    (5, (6157458853519617300000, 3867480821242581000000, 2541284914955150800));
    (5, (3138461110672112800000, 305137463750727800000, 2161509250688394000));
    (5, (3542495872050568900000, 623711123373075490000, 2248778513437851900));
    (5, (3935751553120180900000, 951622395240190740000, 2322388803404617000));
    (5, (4317634668111147200000, 1285467341508516900000, 2383265471001355100));
    (5, (4687413842250821000000, 1622318931656033000000, 2432476675019525100));
    (5, (5044274237060283300000, 1959581153836453000000, 2471122223750673800));
    (5, (5387354077925726700000, 2294888081183837100000, 2500291752486870100));
    (5, (5715768898356105000000, 2626031152713945200000, 2521055942764681800));
    (5, (6028627200136110800000, 2950904075286712700000, 2534472785575503000));
    (5, (6325039812653463500000, 3267458451113285900000, 2541599713080121100));
    (5, (3981986708423406700000, 318329145874982070000, 2317380975862935900));
    (5, (4382791182133299900000, 645954819388090820000, 2378550733719775000));
    (5, (4769233057218166300000, 979575703708795150000, 2428884456739118100));
    (5, (5140823911194237800000, 1316307235126655000000, 2469002655757292000));
    (5, (5496977833862982700000, 1653556486358704100000, 2499657574265851000));
    (5, (5837047306512727100000, 1988931724126510000000, 2521676168486081900));
    (5, (6160349566926879300000, 2320174581438949900000, 2535935662645334000));
    (5, (6466185353209440400000, 2645106562168662000000, 2543356743363213800));
    (5, (4810835158795404000000, 327591780774399220000, 2427353285201534900));
    (5, (5199925041324341400000, 661254618396718150000, 2468258039744386100));
    (5, (5571717692207494000000, 998149833147414230000, 2500060956440309900));
    (5, (5925789250836378500000, 1335687001410373900000, 2523238365420979000));
    (5, (6261658523859670000000, 1671444402896463100000, 2538399260252846200));
    (5, (6578811126669330500000, 2003106382156076000000, 2546255927268069000));
    (5, (5609624612998099800000, 333750094023133530000, 2500583360048448800));
    (5, (5979959659984670500000, 670875033590180300000, 2524777638260203100));
    (5, (6330523711054002500000, 1008792126424850100000, 2540951193860656200));
    (5, (6660960998103971900000, 1345050343171793900000, 2549524085027472200));
    (5, (6365384364585818800000, 337279946073705190000, 2542569507009157900));
    (5, (6710994302899274700000, 675524930967802830000, 2552114127580375800)) ].
(** lebedev.rs:1383-1505 *)
Definition table_4802 : list (Z * (Z * Z * Z)) :=
  [ (0, (0, 0, 968752187942070460));
    (1, (0, 0, 2307897895367918100));
    (2, (0, 0, 2297310852498558100));
    (3, (233572860888706410000, 0, 738626594400191840));
    (3, (435298783655065290000, 0, 825797769854220980));
    (3, (643920052108880040000, 0, 970604476205763020));
    (3, (900394363199318040000, 0, 1302393847117003100));
    (3, (1196706615548473000000, 0, 1541957004600968100));
    (3, (1511715412838134100000, 0, 1704459770092198900));
    (3, (1835982828503801000000, 0, 1827374890942906000));
    (3, (2165081259155405000000, 0, 1926360817436107000));
    (3, (2496208720417562900000, 0, 2008010239494833100));
    (3, (2827200673567900100000, 0, 2075635983209174900));
    (3, (3156190823994345900000, 0, 2131306638690909000));
    (3, (3481476793749114800000, 0, 2176562329937335100));
    (3, (3801466086947226100000, 0, 2212682262991018000));
    (3, (4114652119634010800000, 0, 2240799515668565000));
    (3, (4419598786519751100000, 0, 2261959816187525100));
    (3, (4714925949329543100000, 0, 2277156368808855100));
    (3, (4999293972879466100000, 0, 2287351772128336100));
    (3, (5271387221431248500000, 0, 2293490814084085000));
    (3, (5529896780837760800000, 0, 2296505312376272900));
    (3, (6000856099481711700000, 0, 2296793832318755900));
    (3, (6210562192785175100000, 0, 2295785443842974100));
    (3, (6401165879934239700000, 0, 2295017931529102000));
    (3, (6571144029244333500000, 0, 2295059638184867900));
    (3, (6718910821718863100000, 0, 2296232343237362000));
    (3, (6842845591099010500000, 0, 2298530178740771100));
    (3, (6941353476269815900000, 0, 2301579790280501000));
    (3, (7012965242212990700000, 0, 2304690404996513100));
    (3, (7056471428242644400000, 0, 2307027995907102100));
    (4, (459555764358589510000, 0, 931227469667109180));
    (4, (1049316742435023000000, 0, 1199919385876926000));
    (4, (1773548879549274000000, 0, 1598039138877690100));
    (4, (2559071411236126800000, 0, 1822253763574900100));
    (4, (3358156837985897800000, 0, 1988579593655039900));
    (4, (4155835743763893200000, 0, 2112620102533306900));
    (4, (4937894296167472100000, 0, 2201594887699007100));
    (4, (5691569694793315900000, 0, 2261622590895035900));
    (4, (6405840854894251400000, 0, 2296458453435705100));
    (5, (734513389414334780000, 217784408148606720000, 1006006990267000000));
    (5, (1009859834044930900000, 459036218577518820000, 1227676689635875900));
    (5, (1324289619748758000000, 725506309569087650000, 1467864280270116900));
    (5, (1654272109607127000000, 1017825451960684000000, 1644178912101232000));
    (5, (1990767186776460900000, 1325652320980363900000, 1777664890718960900));
    (5, (2330125945523278100000, 1642765374496764900000, 1884825664516690100));
    (5, (2670080611108287000000, 1965360374337888900000, 1973269246453848100));
    (5, (3008753376294315800000, 2290726770542237900000, 2046767775855327900));
    (5, (3344475596167860200000, 2616645495370822900000, 2107600125918040000));
    (5, (3675709724070785900000, 2941150728843141000000, 2157416362266828900));
    (5, (4001000887587812200000, 3262440400919066100000, 2197557816920721000));
    (5, (4318956350436027900000, 3578835350611915800000, 2229192611835437000));
    (5, (4628239056795531200000, 3888751854043677700000, 2253385110212774900));
    (5, (4927563229773636000000, 4190678003222840200000, 2271137107548774000));
    (5, (5215687136707969400000, 4483151836883851900000, 2283414092917525000));
    (5, (5491402346984904900000, 4764740676087880200000, 2291161673130077100));
    (5, (5753520160126075500000, 5034021310998276800000, 2295313908576597900));
    (5, (1388326356417753900000, 243543651037280600000, 1438204721359030900));
    (5, (1743686900537244100000, 511889705734265220000, 1607738025495257100));
    (5, (2099737037950268100000, 801469504853963430000, 1741483853528379100));
    (5, (2454492590908548000000, 1105117874155699000000, 1851918467519151100));
    (5, (2807219257864278000000, 1417950531570965900000, 1944628638070612900));
    (5, (3156842271975842100000, 1736604945719597000000, 2022495446275152000));
    (5, (3502090945177752100000, 2058466324693981100000, 2087462382438514000));
    (5, (3841684849519685900000, 2381284261195919000000, 2141074754818308000));
    (5, (4174372367906015700000, 2703031270422569000000, 2184640913748161900));
    (5, (4498926465011892100000, 3021845683091308700000, 2219309165220328900));
    (5, (4814146229807700900000, 3335993355165720000000, 2246123118340624100));
    (5, (5118863625734700900000, 3643833735518232100000, 2266062766915124900));
    (5, (5411947455119143800000, 3943789541958179200000, 2280072952230796100));
    (5, (5692301500357246400000, 4234320144403542200000, 2289082025202582900));
    (5, (5958857204139576000000, 4513897947419259800000, 2294012695120025100));
    (5, (2156270284785765900000, 268122575544449090000, 1722434488736947100));
    (5, (2532385054909709900000, 555749574780561380000, 1830237421455091000));
    (5, (2902564617771537000000, 856936806295024860000, 1923855349997632900));
    (5, (3266979823143256200000, 1167367450324135100000, 2004067861936271100));
    (5, (3625039627493614200000, 1483861994003304000000, 2071817297354263000));
    (5, (3975838937548699100000, 1803821503011404900000, 2128250834102103100));
    (5, (4318396099009774200000, 2124962965666424000000, 2174513719440101900));
    (5, (4651706555732741900000, 2445221837805912900000, 2211661839150214100));
    (5, (4974752649620968700000, 2762701224322987000000, 2240665257813102100));
    (5, (5286517579627516600000, 3075627775211328100000, 2262439516632620000));
    (5, (5586001195731894500000, 3382311089826877100000, 2277874557231869100));
    (5, (5872229902021318700000, 3681108834741398900000, 2287854314454994000));
    (5, (6144258616235123100000, 3970397446872839200000, 2293268499615575100));
    (5, (2951676508064861000000, 286749953875044090000, 1912628201529828100));
    (5, (3335085485472725200000, 586787934190350980000, 1992499672238700900));
    (5, (3709561760636381200000, 896109920502228400000, 2061275533454026900));
    (5, (4074722861667498000000, 1211627927626297000000, 2119318215968572000));
    (5, (4429923648839116900000, 1530748903554898000000, 2167416581882652100));
    (5, (4774428052721735900000, 1851176436721876900000, 2206430730516600100));
    (5, (5107446539535903700000, 2170829107658179000000, 2237186938699523000));
    (5, (5428151370542935200000, 2487786689026270900000, 2260480075032884000));
    (5, (5735699292556963900000, 2800239952795016100000, 2277098884558542000));
    (5, (6029253794562865500000, 3106445702878118900000, 2287845715109671000));
    (5, (6307998987073144500000, 3404689500841194300000, 2293547268236294100));
    (5, (3752652273692719300000, 299714509818447900000, 2056073839852528100));
    (5, (4135383879344027800000, 608672589867801090000, 2114235865831875900));
    (5, (4506113885153906800000, 923884954843564310000, 2163175629770551100));
    (5, (4864401554606072000000, 1242786603851851100000, 2203392158111650100));
    (5, (5209708076611708800000, 1563086731483386000000, 2235473176847839100));
    (5, (5541422135830121900000, 1882696509388505900000, 2260024141501235100));
    (5, (5858880915113816600000, 2199672979126059100000, 2277675929329182100));
    (5, (6161399390603443700000, 2512165482924866900000, 2289102112284834100));
    (5, (6448296482255090300000, 2818368701871887800000, 2295027954625118000));
    (5, (4544796274917948200000, 308897040506031190000, 2161281589879992000));
    (5, (4919389072146628200000, 624094767763683500000, 2201980477395101900));
    (5, (5279313026985182900000, 943070614428031250000, 2234952066593166000));
    (5, (5624169925571135300000, 1263547818770373900000, 2260540098520838000));
    (5, (5953484627093287300000, 1583430788822594000000, 2279157981899988000));
    (5, (6266730715339184900000, 1900748462555988100000, 2291296918565571100));
    (5, (6563363204278871400000, 2213599519592567000000, 2297533752536648900));
    (5, (5314574716585696000000, 315250881151537400000, 2234927356465995100));
    (5, (5674614932298185400000, 634386529146556130000, 2261288012985218900));
    (5, (6017706004970263500000, 955150350422395160000, 2280818160923688000));
    (5, (6343471270264178200000, 1275440099801196100000, 2293773295180159100));
    (5, (6651494599127801800000, 1593252037671960000000, 2300528767338633900));
    (5, (6050184986005704400000, 319253833849610510000, 2281893855065665900));
    (5, (6390163550880400000000, 640282435396230530000, 2295720444840726900));
    (5, (6711199107088448000000, 960980507700290860000, 2303227649026753100));
    (5, (6741354429572274900000, 321185319627323300000, 2304831913227114100)) ].
(** lebedev.rs:1506-1639 *)
Definition table_5294 : list (Z * (Z * Z * Z)) :=
  [ (0, (0, 0, 908051076430816320));
    (2, (0, 0, 2084824361987793100));
    (3, (230326168626144990000, 0, 501110565723961630));
    (3, (375720862016239370000, 0, 594252040968385380));
    (3, (582191203382185220000, 0, 956439482610972140));
    (3, (840312752919487180000, 0, 1185530657126338000));
    (3, (1122927798060578000000, 0, 1364510114230330900));
    (3, (1420125319192986900000, 0, 1505828825605415100));
    (3, (1726396437341978000000, 0, 1619298749867022900));
    (3, (2038170058115696100000, 0, 1712450504267789000));
    (3, (2352849892876507900000, 0, 1789891098164998900));
    (3, (2668363354312460700000, 0, 1854474955629795000));
    (3, (2982941279900451800000, 0, 1908148636673660900));
    (3, (3295002922087075800000, 0, 1952377405281833000));
    (3, (3603094918363593000000, 0, 1988349254282232000));
    (3, (3905857895173919800000, 0, 2017079807160050100));
    (3, (4202005758160837200000, 0, 2039473082709094000));
    (3, (4490310061597226900000, 0, 2056360279288952900));
    (3, (4769586160311490900000, 0, 2068525823066865000));
    (3, (5038679887049749600000, 0, 2076724877534488000));
    (3, (5296454286519961500000, 0, 2081694278237885100));
    (3, (5541776207164850200000, 0, 2084157631219326100));
    (3, (5990467321921213500000, 0, 2084381531128593000));
    (3, (6191467096294587200000, 0, 2083476277129307100));
    (3, (6375251212901849000000, 0, 2082686194459732000));
    (3, (6540514381131168300000, 0, 2082475686112415100));
    (3, (6685899064391509500000, 0, 2083139860289915100));
    (3, (6810013009681648000000, 0, 2084745561831237000));
    (3, (6911469578730340400000, 0, 2087091313375890100));
    (3, (6988956915141736300000, 0, 2089718413297697000));
    (3, (7041335794868720500000, 0, 2092003303479792900));
    (3, (7067754398018567500000, 0, 2093336148263241000));
    (4, (384036870785362320000, 0, 759170811736526640));
    (4, (983548595411739830000, 0, 1083383968169186000));
    (4, (1665774947612997900000, 0, 1403019395292510100));
    (4, (2405702335362910100000, 0, 1615970179286436000));
    (4, (3165270770189045900000, 0, 1771144187504911000));
    (4, (3927386145645442900000, 0, 1887760022988168000));
    (4, (4678825918374656100000, 0, 1973474670768214000));
    (4, (5408022024266935200000, 0, 2033787661234659000));
    (4, (6104967445752438300000, 0, 2072343626517330900));
    (4, (6760910702685738500000, 0, 2091177834226918000));
    (5, (665564412021739240000, 193650887458842390000, 931668448467556600));
    (5, (944624616127018170000, 425244200211586930000, 1116193688682976000));
    (5, (1242651925452509000000, 680652931535437460000, 1298623551559414000));
    (5, (1553438064846751100000, 956095749120536850000, 1450236832456426100));
    (5, (1871137110542670000000, 1245931657452887900000, 1572719958149914000));
    (5, (2192612628836257100000, 1545385828778977900000, 1673234785867195000));
    (5, (2515682807206954800000, 1851004249723368100000, 1756860118725187900));
    (5, (2838535866287290000000, 2160182608272384100000, 1826776290439366900));
    (5, (3159578817528521100000, 2470799012277110900000, 1885116347992865000));
    (5, (3477370882791391800000, 2781014208986402100000, 1933457860170573900));
    (5, (3790576960890539900000, 3089172523515730800000, 1973060671902064000));
    (5, (4097938317810200200000, 3393750055472243800000, 2004987099616310900));
    (5, (4398256572859636800000, 3693322470987729900000, 2030170909281499100));
    (5, (4690384114718479900000, 3986541005609877100000, 2049461460119080100));
    (5, (4973216048301052900000, 4272112491408561800000, 2063653565200186100));
    (5, (5245681526132446300000, 4548781735309935800000, 2073507927381027000));
    (5, (5506733911803888300000, 4815315355023250800000, 2079764593256122000));
    (5, (5755339829522474500000, 5070486445801855000000, 2083150534968778100));
    (5, (1305472386056361900000, 228497037572236610000, 1262715121590663900));
    (5, (1637327908216477100000, 481225433828838390000, 1414386128545972000));
    (5, (1972734634149637100000, 753173445751193490000, 1538740401313898000));
    (5, (2308694653110129900000, 1039043639882017000000, 1642434942331431900));
    (5, (2643899218338159900000, 1334526587117626000000, 1729790609237496000));
    (5, (2977171599622170900000, 1636414868936381900000, 1803505190260827900));
    (5, (3307293903032310100000, 1942195406166568100000, 1865475350079657100));
    (5, (3633069198219073300000, 2249752879943753000000, 1917182669679069100));
    (5, (3953346955922726900000, 2557218821820032000000, 1959851709034382100));
    (5, (4267018394184913800000, 2862897925213193100000, 1994529548117882000));
    (5, (4573009622571703700000, 3165224536636517800000, 2022138911146548000));
    (5, (4870279559856108800000, 3462730221636495800000, 2043518024208591900));
    (5, (5157819581450322500000, 3754016870282835300000, 2059450313018109900));
    (5, (5434651666465393200000, 4037733784993612900000, 2070685715318471900));
    (5, (5699823887764626800000, 4312557784139123300000, 2077955310694373000));
    (5, (5952403350947741400000, 4577175367122109900000, 2081980387824712000));
    (5, (2025152599210368900000, 252025361771955680000, 1521318610377956000));
    (5, (2381066653274425100000, 522325450611900030000, 1622772720185755000));
    (5, (2732823383651611900000, 806066968858862030000, 1710498139420709100));
    (5, (3080137692611117900000, 1099335754081255000000, 1785911149448736000));
    (5, (3422405614587600800000, 1399120955959856900000, 1850125313687736000));
    (5, (3758808773890420200000, 1702977801651705000000, 1904229703933298100));
    (5, (4088458383438932100000, 2008799256601679900000, 1949259956121987000));
    (5, (4410450550841151800000, 2314703052180835900000, 1986161545363960100));
    (5, (4723879420561312200000, 2618972111375891800000, 2015790585641370100));
    (5, (5027843561874343300000, 2920013195600270100000, 2038934198707417900));
    (5, (5321453674452457600000, 3216322555190551100000, 2056334060538251000));
    (5, (5603839113834030400000, 3506456615934198100000, 2068705959462288900));
    (5, (5874150706875146400000, 3789007181306267000000, 2076753906106002000));
    (5, (6131559381660037800000, 4062580170572782100000, 2081179391734802900));
    (5, (2778497016394506100000, 269627127687622590000, 1700345216228943000));
    (5, (3143733562261912300000, 552346931696046510000, 1774906779990410100));
    (5, (3501485810261826800000, 844519320162646360000, 1839659377002641900));
    (5, (3851430322303652800000, 1143263119336083000000, 1894987462975168900));
    (5, (4193013979470415200000, 1446177898344475100000, 1941548809452594900));
    (5, (4525585960458566900000, 1751165438438090900000, 1980078427252384100));
    (5, (4848447779622946900000, 2056338306745660000000, 2011296284744488100));
    (5, (5160871208276893700000, 2359965487229226100000, 2035888456966776100));
    (5, (5462112185696925700000, 2660430223139145800000, 2054516325352142000));
    (5, (5751425068101756500000, 2956193664498031900000, 2067831033092635000));
    (5, (6028073872853596500000, 3245763905312779000000, 2076485320284875900));
    (5, (6291338275278408600000, 3527670026206972100000, 2081141439525255100));
    (5, (3541797528439391000000, 282385347943555010000, 1834383015469222100));
    (5, (3908234972074656800000, 574129637471310630000, 1889540591777676900));
    (5, (4264408450107590200000, 872464663365019880000, 1936677023597375000));
    (5, (4609949666553285800000, 1175034422915615900000, 1976176495066504000));
    (5, (4944389496536005800000, 1479755652628428100000, 2008536004560983000));
    (5, (5267194884346085800000, 1784740659484352100000, 2034280351712290900));
    (5, (5577787810220989900000, 2088245700431244100000, 2053944466027758000));
    (5, (5875563763536669800000, 2388628136570762900000, 2068077642882360100));
    (5, (6159910016391269000000, 2684308928769185100000, 2077250949661599000));
    (5, (6430219602956267500000, 2973740761960251800000, 2082062440705319900));
    (5, (4300647036213646200000, 291639992049397690000, 1934374486546626000));
    (5, (4661486308935530700000, 589880302475565900000, 1974107010484300000));
    (5, (5009658555287260800000, 892416269852540910000, 2007129290388658000));
    (5, (5344824270447704500000, 1197185199637321000000, 2033736947471293100));
    (5, (5666575997416371000000, 1502300756161381900000, 2054287125902493000));
    (5, (5974457471404751600000, 1806004191913563900000, 2069184936818894000));
    (5, (6267984444116886400000, 2106621764786252000000, 2078883689808782000));
    (5, (6546664713575417500000, 2402526932671914000000, 2083886366116359100));
    (5, (5042711004437252500000, 298252920360765690000, 2006593275470816900));
    (5, (5392127456774380400000, 600872806233992210000, 2033728426135397100));
    (5, (5726819437668617700000, 905822767457139800000, 2055008781377608100));
    (5, (6046469254207278400000, 1211219235803400000000, 2070651783518502000));
    (5, (6350716157434952400000, 1515286404791580100000, 2080953335094320000));
    (5, (6639177679185454000000, 1816314681255552000000, 2086284998988521100));
    (5, (5757276040972253400000, 302699175257543990000, 2055549387644667900));
    (5, (6090265823139755500000, 607840229787076980000, 2071871850267654000));
    (5, (6406735344387660700000, 913545998417663600000, 2082856600431965100));
    (5, (6706397927793709100000, 1218024155966590000000, 2088705858819357900));
    (5, (6435019674426665200000, 305260835766063900000, 2083995867536322100));
    (5, (6747218676375681400000, 611218577398308930000, 2090509712889637100)) ].
(** lebedev.rs:1640-1785 *)
Definition table_5810 : list (Z * (Z * Z * Z)) :=
  [ (0, (0, 0, 97353479461754856));
    (1, (0, 0, 1907581241803167100));
    (2, (0, 0, 1901059546737578100));
    (3, (118236166240027700000, 0, 392642453891921230));
    (3, (306214500913895810000, 0, 666790546729438150));
    (3, (532979403683424280000, 0, 886889131501913550));
    (3, (784816553286221960000, 0, 1066306000958871900));
    (3, (1054038157636201000000, 0, 1214506743336128000));
    (3, (1335577797766210900000, 0, 1338054681640871100));
    (3, (1625769955502252000000, 0, 1441677023628503900));
    (3, (1921787193412792000000, 0, 1528880200826557000));
    (3, (2221340534690547900000, 0, 1602330623773608900));
    (3, (2522504912791132000000, 0, 1664102653445244000));
    (3, (2823610860679697200000, 0, 1715845854011322900));
    (3, (3123173966267560100000, 0, 1758901000133069100));
    (3, (3419847036953789200000, 0, 1794382485256735900));
    (3, (3712386456999757800000, 0, 1823238106757407000));
    (3, (3999627649876828000000, 0, 1846293252959975900));
    (3, (4280466458648092800000, 0, 1864284079323098000));
    (3, (4553844360185710900000, 0, 1877882694626914000));
    (3, (4818736094437833800000, 0, 1887716321852025000));
    (3, (5074138709260629400000, 0, 1894381638175673100));
    (3, (5319061304570706900000, 0, 1898454899533629100));
    (3, (5552514978677286500000, 0, 1900497929577814900));
    (3, (5981009025246183400000, 0, 1900671501924091900));
    (3, (6173990192228116000000, 0, 1899837555533509900));
    (3, (6351365239411130800000, 0, 1899014113156228900));
    (3, (6512010228227199700000, 0, 1898581257705105900));
    (3, (6654758363948120000000, 0, 1898804756095752900));
    (3, (6778410414853369700000, 0, 1899793610426402100));
    (3, (6881760887484109600000, 0, 1901464554844116900));
    (3, (6963645267094598100000, 0, 1903533246259542000));
    (3, (7023010617153578900000, 0, 1905556158463228000));
    (3, (7059004636628752900000, 0, 1907037155663528000));
    (4, (355247031247257480000, 0, 599299784424996720));
    (4, (915117662084128370000, 0, 974905938245697750));
    (4, (1566197930068979900000, 0, 1241680804599158000));
    (4, (2265467599271907000000, 0, 1437626154299360100));
    (4, (2988242318581361100000, 0, 1584200054793902100));
    (4, (3717482419703885800000, 0, 1694436550982744000));
    (4, (4440094491758889200000, 0, 1776617014018108100));
    (4, (5145337096756642500000, 0, 1836132434440076900));
    (4, (5824053672860229900000, 0, 1876494727075982900));
    (4, (6468283961043369600000, 0, 1899906535336481900));
    (5, (609596425910437290000, 178782827534293110000, 814325282076734980));
    (5, (881196227095938780000, 395388874079209630000, 999885989088772770));
    (5, (1165936722428831000000, 637812179772298950000, 1156199403068359000));
    (5, (1460232857031784900000, 898589081374503720000, 1287632092635513100));
    (5, (1761197110181755000000, 1172606510576162000000, 1398378643365139000));
    (5, (2066471190463718100000, 1456102876970994900000, 1491876468417390900));
    (5, (2374076026328152100000, 1746153823011775100000, 1570855679175456000));
    (5, (2682305474337051100000, 2040383070295584100000, 1637483948103775000));
    (5, (2989653312142369100000, 2336788634003698100000, 1693500566632843000));
    (5, (3294762752772209000000, 2633632752654219100000, 1740322769393633000));
    (5, (3596390887276085800000, 2929369098051600700000, 1779126637278296000));
    (5, (3893383046398812300000, 3222592785275512100000, 1810908108835412100));
    (5, (4184653789358346900000, 3512004791195743000000, 1836529132600190100));
    (5, (4469172319076166200000, 3796385677684537300000, 1856752841777379000));
    (5, (4745950813276976200000, 4074575378263878800000, 1872270566606832100));
    (5, (5014034601410262100000, 4345456906027828100000, 1883722645591307000));
    (5, (5272493404551239500000, 4607942515205134000000, 1891714324525297000));
    (5, (5520413051846365700000, 4860961284181720100000, 1896827480450145900));
    (5, (5756887237503076600000, 5103447395342789500000, 1899628417059528000));
    (5, (1225039430588352000000, 213645592265579300000, 1123301829001669000));
    (5, (1539113217321372000000, 452092616613718810000, 1253698826711276900));
    (5, (1856213098637712100000, 708646817786481860000, 1366266117678531100));
    (5, (2174998728035131000000, 978523948877291770000, 1462736856106918000));
    (5, (2494128336938329900000, 1258106396267210100000, 1545076466685411900));
    (5, (2812321562143479900000, 1544529125047001100000, 1615096280814006900));
    (5, (3128372276456111200000, 1835433512202752900000, 1674366639741759100));
    (5, (3441145160177973000000, 2128813258619584900000, 1724225002437900100));
    (5, (3749567714853510000000, 2422913734880829100000, 1765810822987287900));
    (5, (4052621732015609900000, 2716163748391453000000, 1800104126010751100));
    (5, (4349335453522384900000, 3007127671240280000000, 1827960437331284100));
    (5, (4638776641524964800000, 3294470677216478900000, 1850140300716307900));
    (5, (4920046410462686800000, 3576932543699155000000, 1867333507394938100));
    (5, (5192273554861703800000, 3853307059757764000000, 1880178688638289100));
    (5, (5454609081136522200000, 4122425044452693900000, 1889278925654758000));
    (5, (5706220661424139500000, 4383139587781027000000, 1895213832507345900));
    (5, (5946286755181517900000, 4634312536300552700000, 1898548277397420000));
    (5, (1905370790924295100000, 237131153778197890000, 1349105935937341100));
    (5, (2242518717748009100000, 491787805925480580000, 1444060068369326000));
    (5, (2577190808025935900000, 759549896049514230000, 1526797390930008000));
    (5, (2908724534927186700000, 1036991083191100000000, 1598208771406474100));
    (5, (3236354020056219100000, 1321348584450234000000, 1659354368615330900));
    (5, (3559267359304543200000, 1610316571314789100000, 1711279910946439900));
    (5, (3876637123676955900000, 1901912080395707100000, 1754952725601440100));
    (5, (4187636705218841800000, 2194384950137950000000, 1791247850802529100));
    (5, (4491449019883107000000, 2486155334763857900000, 1820954300877715900));
    (5, (4787270932425444800000, 2775768931812335200000, 1844788524548449000));
    (5, (5074315153055574100000, 3061863786591120200000, 1863409481706220000));
    (5, (5351810507738336000000, 3343144718152555900000, 1877433008795068100));
    (5, (5619001025975380900000, 3618362729028427000000, 1887444543705231900));
    (5, (5875144035268046200000, 3886297583620407800000, 1894009829375005900));
    (5, (6119507308734495300000, 4145742277792031100000, 1897683345035197900));
    (5, (2619733870119462800000, 254004718638935300000, 1517327037467653100));
    (5, (2968149743237948900000, 520810701854398930000, 1587740557483542900));
    (5, (3310451504860488200000, 797182847088559880000, 1649093382274097100));
    (5, (3646215567376676100000, 1080465999177927000000, 1701915216193264900));
    (5, (3974916785279359900000, 1368413849366629000000, 1746847753144064900));
    (5, (4295967403772029100000, 1659073184763559000000, 1784555512007569900));
    (5, (4608742854473447100000, 1950703730454614000000, 1815687562112174000));
    (5, (4912598858949903100000, 2241721144376724000000, 1840864370663302000));
    (5, (5206882758945558000000, 2530655255406488700000, 1860676785390005900));
    (5, (5490940914019819500000, 2816118409731066000000, 1875690583743703100));
    (5, (5764123302025542200000, 3096780504593237800000, 1886453236347224900));
    (5, (6025786004213505900000, 3371348366394987300000, 1893501123329645100));
    (5, (6275291964794955700000, 3638547827694396100000, 1897366184519868100));
    (5, (3348189479861771200000, 266484193553744310000, 1643908815152736100));
    (5, (3699515545855294700000, 542400006684349500000, 1696300350907767900));
    (5, (4042003071474669100000, 825199271543085450000, 1741553103844482900));
    (5, (4375320100182624200000, 1112695182483710000000, 1780015282386091900));
    (5, (4699054490335947100000, 1402964116467816100000, 1812116787077125100));
    (5, (5012739879431952200000, 1694275117584291000000, 1838323158085420900));
    (5, (5315874883754966300000, 1985038235312689100000, 1859113119837737000));
    (5, (5607937109622116400000, 2273765660020893000000, 1874969220221697900));
    (5, (5888393223495520500000, 2559041492849764000000, 1886375612681076100));
    (5, (6156705979160163000000, 2839497251976899100000, 1893819575809276100));
    (5, (6412338809078123000000, 3113791060500690200000, 1897794748256766900));
    (5, (4076051259257166800000, 275779229085846290000, 1738963926584846000));
    (5, (4423788125791520100000, 558413683498429280000, 1777442359873466100));
    (5, (4760480917328258100000, 845777208772714310000, 1810010815068718900));
    (5, (5085838725946296700000, 1135975846359248000000, 1836920318248128900));
    (5, (5399513637391217800000, 1427286904765053000000, 1858489473214327900));
    (5, (5701118433636379600000, 1718112740057634900000, 1875079342496591900));
    (5, (5990240530606021400000, 2006944855985350900000, 1887080239102310000));
    (5, (6266452685139695100000, 2292335090598907100000, 1894905752176821900));
    (5, (6529320971415941700000, 2572871512353713800000, 1898991061200695100));
    (5, (4791583834610125800000, 282609419773593200000, 1809065016458791000));
    (5, (5130373952796940500000, 569987135968364890000, 1836297121596799000));
    (5, (5456252429628476500000, 860271252855439460000, 1858426916241869000));
    (5, (5768956329682385400000, 1151748137221280900000, 1875654101134641000));
    (5, (6068186944699045500000, 1442811654136362000000, 1888240751833503000));
    (5, (6353622248024907200000, 1731930321657680100000, 1896497383866979100));
    (5, (6624927035731796900000, 2017619958756060900000, 1900775530219120900));
    (5, (5484933508028487800000, 287421975590739090000, 1858525041478814000));
    (5, (5810207682142105600000, 577831212371369490000, 1876248690077947100));
    (5, (6120955197181352500000, 869526237143952580000, 1889404439064607100));
    (5, (6416944284294319200000, 1160893767057166000000, 1898168539265290000));
    (5, (6697926391731260400000, 1450378826743251000000, 1902779940661772000));
    (5, (6147594390585488000000, 290495762234145620000, 1890125641731814900));
    (5, (6455390026356783200000, 582380915261719730000, 1899434637795751100));
    (5, (6747258588365476800000, 874038489988471500000, 1904520856831751000));
    (5, (6772135750395347200000, 291994613580810500000, 1905534498734562900)) ].
(** the match of lebedev_make_angular_grid, lebedev.rs:434-1787 *)
Definition grid_table (degree : Z) : res (list (Z * (Z * Z * Z))) :=
  if degree =? 6 then Ok table_6
  else if degree =? 14 then Ok table_14
  else if degree =? 26 then Ok table_26
  else if degree =? 38 then Ok table_38
  else if degree =? 50 then Ok table_50
  else if degree =? 74 then Ok table_74
  else if degree =? 86 then Ok table_86
  else if degree =? 110 then Ok table_110
  else if degree =? 146 then Ok table_146
  else if degree =? 170 then Ok table_170
  else if degree =? 194 then Ok table_194
  else if degree =? 230 then Ok table_230
  else if degree =? 266 then Ok table_266
  else if degree =? 302 then Ok table_302
  else if degree =? 350 then Ok table_350
  else if degree =? 434 then Ok table_434
  else if degree =? 590 then Ok table_590
  else if degree =? 770 then Ok table_770
  else if degree =? 974 then Ok table_974
  else if degree =? 1202 then Ok table_1202
  else if degree =? 1454 then Ok table_1454
  else if degree =? 1730 then Ok table_1730
  else if degree =? 2030 then Ok table_2030
  else if degree =? 2354 then Ok table_2354
  else if degree =? 2702 then Ok table_2702
  else if degree =? 3074 then Ok table_3074
  else if degree =? 3470 then Ok table_3470
  else if degree =? 3890 then Ok table_3890
  else if degree =? 4334 then Ok table_4334
  else if degree =? 4802 then Ok table_4802
  else if degree =? 5294 then Ok table_5294
  else if degree =? 5810 then Ok table_5810
  else Panic.

Section Rule.
  Context {T : Type} (zero one : T) (add mul sub : T -> T -> T) (opp sqrt : T -> T) (half_root third_root : T) (decimal : Z -> T).
  (** lebedev_make_angular_grid, lebedev.rs:433-1814.  The vectors start uninitialised; a cell never written is [Panic], see assume_init. *)
  Definition make_angular_grid (degree : Z) : res (list T * list T) :=
    let* rows := grid_table degree in
    let* st := fold_res (place_orbit zero one add mul sub opp sqrt half_root third_root decimal) rows (uninit T (degree * 3), uninit T degree, 0) in
    let '(quads, weights, _) := st in
    let* quads := assume_init quads in
    let* weights := assume_init weights in
    Ok (quads, weights).
  (** lebedev_rule_f of the devices, impl_cpu_serial.rs:5-12, with asarray of (vector, layout, device), asarray.rs:442-455 *)
  Definition lebedev_rule (n : Z) : res (tensor T * tensor T) :=
    let* degree := order_to_degree n in
    let* g := make_angular_grid degree in
    let ngrids := length (snd g) in
    let* quads := unwrap (tensor_new (fst g) (new_contig Fixed [ngrids; 3%nat] 0 RowMajor)) in
    let* weights := unwrap (tensor_new (snd g) (new_contig Fixed [ngrids] 0 RowMajor)) in
    Ok (quads, weights).
  (** lebedev_rule_from_degree_f, lebedev.rs:103-111 *)
  Definition lebedev_rule_from_degree (degree : Z) : res (tensor T * tensor T) :=
    let* order := degree_to_order degree in lebedev_rule order.
End Rule.
