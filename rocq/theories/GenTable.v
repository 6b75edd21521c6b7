(** * Every pair of nodes can be drawn

    For the numbers of nodes used by the test-suite: a table of states of the
    random generator, one for every pair, checked by computation. *)
From Verif Require Import Base Data ProblemDefine CostScaling Generator GenSpec.
Local Open Scope Z_scope.

Definition is_value (N r : Z) (w : rng) : bool := match next_of N w with Some x => x =? r | None => false end.

Definition yields_b (N u v : Z) (w : rng) : bool :=
  (0 <=? w) && (w <? 2 ^ 48) && is_value N u w && is_value N v (rng_step w) && is_value N u (rng_step (rng_step w)).

Lemma is_value_ok N r w : is_value N r w = true -> next_of N w = Some r.
Proof. unfold is_value. destruct (next_of N w) as [x|]; [|discriminate]. intro E. apply Z.eqb_eq in E. congruence. Qed.

Lemma yields_b_ok N u v w : yields_b N u v w = true -> can_yield N u v.
Proof.
  unfold yields_b. intro E. rewrite !andb_true_iff, Z.leb_le, Z.ltb_lt in E. destruct E as ((((E1 & E2) & E3) & E4) & E5).
  exists w. split; [lia|]. split; [|split]; apply is_value_ok; assumption.
Qed.

(** the pairs u < v < N *)
Definition pairs (N : nat) : list (Z * Z) :=
  flat_map (fun v => map (fun u => (Z.of_nat u, Z.of_nat v)) (seq 0 v)) (seq 0 N).

Lemma in_pairs N u v : 0 <= u < v -> v < Z.of_nat N -> In (u, v) (pairs N).
Proof.
  intros Hu Hv. unfold pairs. apply in_flat_map. exists (Z.to_nat v). split; [apply in_seq; lia|].
  apply in_map_iff. exists (Z.to_nat u). split; [f_equal; lia|apply in_seq; lia].
Qed.

Fixpoint table_ok (N : Z) (l : list (Z * Z)) (t : list Z) : bool :=
  match l, t with
  | [], _ => true
  | (u, v) :: l, w :: t => yields_b N u v w && table_ok N l t
  | _ :: _, [] => false
  end.

Lemma table_sound N l : forall t, table_ok N l t = true -> forall u v, In (u, v) l -> can_yield N u v.
Proof.
  induction l as [|[u v] l IH]; intros [|w t] E u' v' H; cbn in E, H; try contradiction; try discriminate.
  apply andb_true_iff in E. destruct E as [E1 E2]. destruct H as [[= <- <-]|H]; [exact (yields_b_ok _ _ _ _ E1)|exact (IH t E2 _ _ H)].
Qed.

Lemma drawable_simple N t : table_ok (Z.of_nat N) (pairs N) t = true -> drawable false (Z.of_nat N).
Proof. intros E u v H1 H2. exact (table_sound _ _ _ E u v (in_pairs N u v H1 H2)). Qed.

Lemma drawable_multi N u v w : u <> v -> yields_b N u v w = true -> drawable true N.
Proof. intros H E. exists u, v. split; [exact H|exact (yields_b_ok _ _ _ _ E)]. Qed.

Lemma drawable_4 : drawable true 4.
Proof. apply (drawable_multi 4 0 2 5); [discriminate|vm_compute; reflexivity]. Qed.
Lemma drawable_50_multi : drawable true 50.
Proof. apply (drawable_multi 50 24 28 1); [discriminate|vm_compute; reflexivity]. Qed.
Lemma drawable_100 : drawable true 100.
Proof. apply (drawable_multi 100 95 81 145); [discriminate|vm_compute; reflexivity]. Qed.

Definition table_5 : list Z := [53; 63; 6; 0; 88; 95; 136; 79; 122; 48].
Lemma drawable_5 : drawable false 5.
Proof. apply (drawable_simple 5 table_5). vm_compute. reflexivity. Qed.

Definition table_50 : list Z := [
181892; 241188; 282887; 56795; 71435; 3587; 78668; 6953; 403299; 124408; 101451; 157790; 2677; 32867; 161831;
284934; 93308; 25460; 40100; 13951; 157555; 9000; 281568; 194303; 17317; 36734; 180338; 3352; 96265; 88122;
111815; 126455; 58607; 152369; 274100; 2442; 95355; 5634; 20274; 212810; 35824; 50464; 281333; 76378; 36499;
182620; 174477; 91079; 543764; 264873; 136819; 46188; 190702; 122854; 137494; 154651; 211900; 4724; 38781;
30638; 110670; 68971; 1123; 291697; 73012; 46863; 452458; 22321; 192984; 448; 52511; 283380; 660309; 98251;
8530; 223849; 215706; 38720; 79396; 71253; 214857; 23231; 53421; 260597; 257231; 207389; 15763; 132308;
189557; 121709; 80010; 56613; 6771; 3405; 10812; 34505; 7446; 298020; 184606; 37636; 11487; 41677; 83376;
15528; 30168; 262879; 131459; 2495; 32685; 161649; 135500; 448857; 293744; 123991; 34270; 112482; 55407;
79100; 94650; 26802; 9728; 93126; 25278; 39918; 13769; 93801; 85658; 82292; 32450; 56143; 86333; 463262;
101883; 116523; 48675; 22526; 73300; 65157; 232454; 119040; 51192; 180156; 194796; 17810; 9667; 240536; 63550;
67417; 10342; 202878; 25892; 40532; 271401; 96083; 87940; 111633; 54558; 36552; 88615; 258368; 104165; 13534;
262409; 172688; 164545; 81147; 111337; 135030; 126887; 37166; 180770; 159655; 5452; 20092; 397021; 35642;
50282; 281151; 213303; 36317; 28174; 24808; 82057; 32215; 28849; 20706; 164310; 59039; 73679; 281765; 182438;
114590; 129230; 15816; 160330; 87705; 69699; 310431; 205160; 137312; 442526; 295556; 119480; 197692; 42579;
213242; 81822; 88319; 390903; 112012; 34558; 211718; 106447; 38599; 53239; 110488; 68789; 83429; 31131; 72830;
69464; 61321; 292190; 13299; 43489; 420418; 53853; 13974; 5831; 99593; 59714; 161702; 200945; 41965; 207442;
30456; 245775; 91572; 941; 291515; 223667; 46681; 84104; 461033; 284047; 114294; 23663; 288088; 220240; 69403;
1555; 31745; 73444; 79214; 22139; 192802; 23049; 116811; 233356; 257049; 169784; 15581; 132126; 189375;
147676; 16256; 8113; 151717; 46446; 76636; 283812; 212097; 24338; 38978; 132740; 92861; 56431; 86621; 3223;
267648; 75112; 7264; 63603; 222757; 53004; 11305; 25945; 170459; 79828; 11980; 3837; 125568; 57720; 72360;
362934; 193181; 16195; 453330; 64892; 2230; 285480; 93854; 26006; 32503; 124044; 56196; 86386; 229990; 203841;
218481; 48728; 192332; 102611; 94468; 324427; 234706; 184864; 7878; 87000; 230604; 53618; 57485; 362699;
192946; 15960; 51245; 131277; 89578; 17863; 335087; 93619; 67470; 82110; 432890; 34088; 86151; 463080; 74642;
116341; 26620; 120382; 248436; 56810; 108873; 3602; 60851; 34702; 49342; 280211; 332274; 53383; 9546; 202082;
25096; 55286; 13587; 43777; 172741; 17628; 32268; 6119; 135083; 67235; 10160; 241029; 25710; 22344; 271219;
203371; 259710; 18242; 14876; 56575; 86765; 18917; 75256; 204220; 49107; 95901; 110541; 84392; 126091; 36370;
130132; 210164; 126766; 14262; 28902; 70601; 164363; 32943; 111155; 134848; 63133; 36984; 180588; 195228;
105507; 55665; 79358; 109548; 67849; 1; 241643; 71890; 45741; 159473; 28053; 19910; 250779; 58243; 65650;
20585; 103983; 480912; 50775; 24626; 273501; 96515; 28667; 342024; 17158; 58857; 73497; 21199; 104597; 59532;
29516; 282258; 3367; 18007; 410486; 43921; 63747; 97804; 182256; 5270; 129048; 212446; 242636; 72883; 69517;
213121; 204978; 27992; 65415; 209019; 205653; 197510; 20524; 235843; 81640; 110920; 70131; 213735; 36749;
202226; 451101; 274115; 104362; 13731; 278156; 236457; 59471; 111534; 34376; 114408; 106265; 994; 53057;
445536; 5035; 98797; 314116; 137130; 69282; 359856; 182870; 13117; 43307; 483808; 145212; 13792; 5649; 2283;
123104; 74172; 6324; 383253; 315405; 36514; 66704; 259240; 82254; 14406; 29046; 388522; 283251; 215403; 38417;
30274; 26908; 84157; 759; 30949; 223485; 46499; 61139; 200467; 137805; 65180; 24391; 53671; 197275; 69221;
1373; 16013; 160527; 69896; 61753; 229050; 307262; 65794; 47788; 54285; 123544; 6263; 443398; 75165; 7317;
192620; 22867; 139412; 370281; 91390; 23542; 101754; 12033; 215342; 83922; 16074; 201377; 216017; 46264;
76454; 8606; 193909; 106644; 38796; 224099; 92679; 84536; 521671; 31328; 174932; 85211; 77068; 100761; 115401;
47553; 16627; 56249; 70889; 3041; 33231; 74930; 48781; 63421; 207025; 15399; 109161; 25763; 105795; 79646;
7931; 151535; 317012; 57538; 72178; 201142; 24156; 102368; 12647; 64710; 193674; 1138; 8545; 152149; 46878;
80935; 9220; 50919; 24770; 39410; 183014; 285298; 93672; 67523; 267466; 225767; 56014; 86204; 229808; 203659;
202749; 63186; 170277; 102429; 180641; 3655; 234524; 162809; 7696; 173173; 192999; 125151; 155341; 179034;
215547; 125826; 117683; 261287; 171566; 147873; 8310; 110215; 253819; 76833; 36044; 385914; 262515; 11184;
25824; 17681; 161285; 255047; 108077; 18356; 330803; 33906; 48546; 441025; 74460; 94286; 26438; 41078; 200232;
56628; 4330; 3420; 716489; 34520; 49160; 280029; 103043; 35195; 27052; 143597; 185296; 80025; 12177; 4034;
99616; 57917; 49774; 111800; 9364; 299938; 24914; 55104; 13405; 43595; 67288; 17446; 32086; 5937; 134901;
77826; 9978; 203424; 48311; 55718; 271037; 94051; 195956; 40843; 313411; 263569; 86583; 188488; 212181;
177889; 48925; 150830; 208079; 268285; 196570; 19584; 234903; 79790; 109980; 302516; 125530; 58296; 110359;
20638; 164242; 36188; 65468; 194432; 40229; 417158; 13170; 172324; 67053; 58910; 304419; 112793; 44945; 59585;
153347; 195046; 18060; 456105; 52117; 109366; 67667; 10592; 225911; 71708; 188253; 60199; 203803; 132088;
26817; 170421; 264183; 132763; 4709; 441844; 162953; 95719; 87576; 84210; 213174; 58061; 88251; 20403; 103801;
14080; 50593; 341167; 2571; 32761; 110973; 21252; 213788; 10653; 88865; 304184; 127198; 55483; 29334; 172938;
3185; 33375; 111587; 135280; 45559; 82072; 10357; 34050; 64240; 22541; 52731; 305473; 26582; 433; 15073;
72322; 182074; 5088; 19728; 250597; 242454; 559678; 69335; 212939; 204796; 27810; 258679; 61867; 145265;
28485; 20342; 235661; 74225; 110738; 21017; 149981; 36567; 51207; 180171; 90450; 22602; 14459; 43739; 172703;
82982; 410069; 93346; 113172; 45324; 139086; 219118; 297330; 23216; 37856; 181460; 173317; 291212; 12321;
42511; 812; 351592; 174606; 4853; 1487; 292061; 136948; 47227; 99290; 182688; 114840; 129480; 1426; 81458;
175220; 43800; 2101; 412586; 73990; 6142; 383071; 206085; 36332; 66522; 24823; 168427; 78706; 6991; 214167;
67197; 74604; 89244; 21396; 143127; 59729; 33580; 260582; 105469; 388340; 283069; 193348; 38235; 30092;
223538; 83975; 577; 30767; 246086; 46317; 60957; 189921; 220111; 152263; 121337; 53489; 182453; 5467; 144795;
314548; 224827; 69714; 99904; 228868; 307080; 88395; 47606; 191210; 14224; 6081; 2715; 54778; 183742; 6756;
84968; 213932; 36946; 89009; 298005; 376217; 14838; 56977; 21775; 312349; 61018; 139230; 370099; 91208; 23360;
53550; 11851; 253493; 83740; 8659; 201195; 215835; 24209; 76272; 393496; 114605; 46757; 543597; 160345; 92497;
107137; 39289; 224592; 137327; 69479; 99669; 100579; 115219; 25498; 424300; 247314; 29539; 107751; 338620;
123301; 78236; 134575; 100283; 123976; 52261; 56067; 7135; 301576; 33049; 409978; 71382; 63239; 192203; 15217;
49274; 324298; 55771; 15892; 7749; 4383; 61632; 98145; 8424; 200960; 23974; 38614; 12465; 64528; 84354; 16506;
8363; 174750; 133961; 76886; 9038; 87250; 24588; 39228; 35862; 93111; 43269; 39903; 31760; 175364; 70093;
17795; 32435; 74134; 47985; 247693; 93490; 2859; 293433; 162013; 48599; 86022; 229626; 124355; 154545; 63004;
272000; 102247; 11616; 90738; 170770; 162627; 79229; 109419; 253023; 124969; 34338; 178852; 193492; 125644;
219406; 261105; 171384; 186024; 30911; 201574; 216214; 62011; 73285; 202249; 194106; 17120; 54543; 198147;
156448; 84733; 9652; 13519; 70768; 39842; 285116; 157062; 25642; 17499; 248368; 55832; 3534; 18174; 10031;
33724; 48364; 100427; 10706; 180459; 26256; 40896; 184500; 94779; 86636; 3238; 395717; 57121; 48978; 45612;
102861; 35013; 49653; 41510; 1631; 79843; 11995; 42185; 125583; 57735; 72375; 215979; 24353; 58410; 50267;
64907; 2245; 16885; 110647; 134340; 148980; 81132; 9182; 281750; 194485; 54922; 270241; 180520; 172377; 17264;
13898; 240900; 85787; 44998; 74278; 131527; 135394; 18113; 335337; 66810; 4148; 40661; 313229; 225964; 86401;
83035; 331910; 203856; 26870; 150648; 207897; 117266; 27545; 19402; 234721; 249361; 109798; 400372; 212613;
35627; 8568; 385497; 257443; 54308; 12609; 42799; 235335; 16650; 110412; 58114; 510799; 20456; 164060; 58789;
50646; 194250; 104529; 36681; 51321; 134719; 186782; 9796; 225115; 112611; 55536; 59403; 410183; 11381; 41571;
119783; 51935; 135333; 3913; 82125; 241279; 34103; 64293; 11085; 268103; 113900; 26635; 505469; 80518; 12670;
4527; 19167; 162771; 73050; 151262; 83414; 103240; 35392; 27249; 464384; 167487; 95772; 27924; 95537; 5816;
84028; 212992; 36006; 88069; 46370; 40047; 133809; 28538; 379318; 337619; 32579; 6430; 21070; 44763; 36620;
153165; 282129; 127016; 37295; 29152; 172756; 67485; 33193; 392116; 21684; 45377; 18318; 290886; 282743;
64058; 22359; 52549; 196153; 26400; 98289; 14891; 72140; 68774; 18932; 291500; 7423; 64672; 61306; 190270;
13284; 91496; 23648].
Lemma drawable_50 : drawable false 50.
Proof. apply (drawable_simple 50 table_50). vm_compute. reflexivity. Qed.
