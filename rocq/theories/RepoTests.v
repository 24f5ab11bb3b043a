(** The assertions of the repository's unit tests (tests/**/*.cpp), evaluated in the model.

    These are tests, not proofs of properties: they are evidence that the model computes what
    the authors of the code expect it to compute.  The reference values are copied from the test
    sources, and a comparison is the comparison of the test: [check] is pmpl::check, [near]
    is EXPECT_NEAR( val, ref, tol ), i.e. |val - ref| <= tol, [same] is EXPECT_EQ.  All numbers
    are doubles.  Not covered: the one test of EqualSpacing<float, 2>, tests compiled only with
    C++20, the static_asserts about types, and printed text. *)
From Coq Require Import ZArith List Bool.
From Flocq Require Import Core IEEE754.BinarySingleNaN.
From Verif Require Import Base Num ModelB64 ModelAssert ModelCArray ModelSequence ModelSpacing
  ModelQuadrature ModelLagrange ModelBasisProduct ModelTransforms ModelShapes ModelPmpl.
From Verif Require ModelIndex.
Import ListNotations.
Open Scope Z_scope.

Notation L := b64_lit.
Definition ofI (z : Z) : b64 := b64_ofZ z.
Definition sub64 : b64 -> b64 -> b64 := Bminus mode_NE.
Definition mul64 : b64 -> b64 -> b64 := Bmult mode_NE.
Definition div64 : b64 -> b64 -> b64 := Bdiv mode_NE.
Definition add64 : b64 -> b64 -> b64 := Bplus mode_NE.
Definition sqrt64 : b64 -> b64 := Bsqrt mode_NE.
Definition near (val ref tol : b64) : bool := Bleb (Babs (sub64 val ref)) tol.
Definition same (x y : b64) : bool := Beqb x y.
Definition near_rel (tol ref val : b64) : bool := near val ref (mul64 (Babs ref) tol).
Definition check_tol (tol ref val : b64) : bool := check B64Num val ref tol.

Fixpoint all2 {A B} (f : A -> B -> bool) (l : list A) (l' : list B) : bool :=
  match l, l' with
  | [], [] => true
  | x :: l, y :: l' => f x y && all2 f l l'
  | _, _ => false
  end.
Definition ok1 {A} (f : A -> bool) (o : outcome A) : bool := match o with Ok x => f x | _ => false end.
Definition okZ (z : Z) (o : outcome Z) : bool := ok1 (Z.eqb z) o.
Definition dies {A} (o : outcome A) : bool := match o with Aborted => true | _ => false end.
Definition idx (n : Z) : list Z := map Z.of_nat (seq 0 (Z.to_nat n)).
Definition triples (n m p : Z) : list (list Z) :=
  flat_map (fun a => flat_map (fun b => map (fun c => [a; b; c]) (idx p)) (idx m)) (idx n).

(** The tests run on the host; bounds checking is on in the CI configurations. *)
Definition host : ctx := host_runtime true.
(** A constant expression on the host. *)
Definition constant : ctx := {| tgt := Host; has_builtin := true; const_eval := true; bounds_check := true |}.

(** tests/functions/testSpacing.cpp:99-221. *)
Definition spacing_test (s : spacing) (refs : list b64) : bool :=
  let n := Z.of_nat (length refs) in
  all2 (fun ref i => ok1 (fun v => near v ref (L 1 14)) (coord_rt B64Num s n i)) refs (idx n) &&
  all2 (fun ref i => ok1 (check_tol (L 1 13) ref) (coord_ct B64Num s n i)) refs (idx n).
Example test_EqualSpacing_2 : spacing_test EqualSpacing [L (-10) 1; L (10) 1] = true.
Proof. vm_compute. reflexivity. Qed.
Example test_EqualSpacing_3 : spacing_test EqualSpacing [L (-10) 1; L (0) 1; L (10) 1] = true.
Proof. vm_compute. reflexivity. Qed.
Example test_EqualSpacing_4 : spacing_test EqualSpacing [L (-10) 1; div64 (L (-10) 1) (L (30) 1); div64 (L (10) 1) (L (30) 1); L (10) 1] = true.
Proof. vm_compute. reflexivity. Qed.
Example test_EqualSpacing_5 : spacing_test EqualSpacing [L (-10) 1; L (-5) 1; L (0) 1; L (5) 1; L (10) 1] = true.
Proof. vm_compute. reflexivity. Qed.
Example test_GaussLegendreSpacing_2 : spacing_test GaussLegendreSpacing [L (-57735026918962576451) 20; L (57735026918962576451) 20] = true.
Proof. vm_compute. reflexivity. Qed.
Example test_GaussLegendreSpacing_3 : spacing_test GaussLegendreSpacing [L (-77459666924148337704) 20; L (0) 1; L (77459666924148337704) 20] = true.
Proof. vm_compute. reflexivity. Qed.
Example test_GaussLegendreSpacing_4 : spacing_test GaussLegendreSpacing [L (-86113631159405257522) 20; L (-3399810435848562648) 19; L (3399810435848562648) 19; L (86113631159405257522) 20] = true.
Proof. vm_compute. reflexivity. Qed.
Example test_GaussLobattoSpacing_2 : spacing_test GaussLobattoSpacing [L (-10) 1; L (10) 1] = true.
Proof. vm_compute. reflexivity. Qed.
Example test_GaussLobattoSpacing_3 : spacing_test GaussLobattoSpacing [L (-10) 1; L (0) 1; L (10) 1] = true.
Proof. vm_compute. reflexivity. Qed.
Example test_GaussLobattoSpacing_4 : spacing_test GaussLobattoSpacing [L (-10) 1; L (-44721359549995793928) 20; L (44721359549995793928) 20; L (10) 1] = true.
Proof. vm_compute. reflexivity. Qed.
Example test_GaussLobattoSpacing_5 : spacing_test GaussLobattoSpacing [L (-10) 1; L (-6546536707079771438) 19; L (0) 1; L (6546536707079771438) 19; L (10) 1] = true.
Proof. vm_compute. reflexivity. Qed.

(** tests/functions/testQuadrature.cpp:24-156. *)
Definition quadrature_test (q : rule) (refs : list (b64 * b64)) : bool :=
  let n := Z.of_nat (length refs) in
  let t := L 1 13 in
  all2 (fun ref i => ok1 (near_rel t (fst ref)) (coord_rt B64Num (rule_spacing q) n i) &&
                     ok1 (near_rel t (snd ref)) (weight_rt B64Num q n i) &&
                     ok1 (near_rel t (fst ref)) (coord_ct B64Num (rule_spacing q) n i) &&
                     ok1 (near_rel t (snd ref)) (weight_ct B64Num q n i)) refs (idx n).
Definition neg (x : b64) : b64 := Bopp x.
Definition I (z : Z) := ofI z.
Definition gl4p := sqrt64 (div64 (add64 (I 15) (mul64 (I 2) (sqrt64 (I 30)))) (I 35)).
Definition gl4m := sqrt64 (div64 (sub64 (I 15) (mul64 (I 2) (sqrt64 (I 30)))) (I 35)).
Definition gl4wm := div64 (sub64 (I 18) (sqrt64 (I 30))) (I 36).
Definition gl4wp := div64 (add64 (I 18) (sqrt64 (I 30))) (I 36).
Example test_GaussLegendreQuadrature2 : quadrature_test QuadratureGaussLegendre
  [(div64 (I (-1)) (sqrt64 (I 3)), I 1); (div64 (I 1) (sqrt64 (I 3)), I 1)] = true.
Proof. vm_compute. reflexivity. Qed.
Example test_GaussLegendreQuadrature3 : quadrature_test QuadratureGaussLegendre
  [(neg (sqrt64 (L 6 1)), div64 (I 5) (I 9)); (I 0, div64 (I 8) (I 9)); (sqrt64 (L 6 1), div64 (I 5) (I 9))] = true.
Proof. vm_compute. reflexivity. Qed.
Example test_GaussLegendreQuadrature4 : quadrature_test QuadratureGaussLegendre
  [(neg gl4p, gl4wm); (neg gl4m, gl4wp); (gl4m, gl4wp); (gl4p, gl4wm)] = true.
Proof. vm_compute. reflexivity. Qed.
Example test_GaussLobattoQuadrature2 : quadrature_test QuadratureGaussLobatto [(I (-1), I 1); (I 1, I 1)] = true.
Proof. vm_compute. reflexivity. Qed.
Example test_GaussLobattoQuadrature3 : quadrature_test QuadratureGaussLobatto
  [(I (-1), div64 (I 1) (I 3)); (I 0, div64 (I 4) (I 3)); (I 1, div64 (I 1) (I 3))] = true.
Proof. vm_compute. reflexivity. Qed.
Example test_GaussLobattoQuadrature4 : quadrature_test QuadratureGaussLobatto
  [(I (-1), div64 (I 1) (I 6)); (neg (sqrt64 (L 2 1)), div64 (I 5) (I 6));
   (sqrt64 (L 2 1), div64 (I 5) (I 6)); (I 1, div64 (I 1) (I 6))] = true.
Proof. vm_compute. reflexivity. Qed.
Example test_GaussLobattoQuadrature5 : quadrature_test QuadratureGaussLobatto
  [(I (-1), div64 (I 1) (I 10)); (neg (sqrt64 (div64 (I 3) (I 7))), div64 (I 49) (I 90)); (I 0, div64 (I 32) (I 45));
   (sqrt64 (div64 (I 3) (I 7)), div64 (I 49) (I 90)); (I 1, div64 (I 1) (I 10))] = true.
Proof. vm_compute. reflexivity. Qed.

(** tests/functions/testLagrangeBasis.cpp:30-140. *)
Definition lagrange_test (s : spacing) (coord : b64) (refValues refGradients : list b64) : bool :=
  let b := LagrangeBasis B64Num 5 s in
  let t := L 1 12 in
  all2 (fun ref i => ok1 (fun v => check_tol t ref v && near v ref (Babs (mul64 ref t))) (bvalue b i coord))
    refValues (idx 6) &&
  all2 (fun ref i => ok1 (fun v => check_tol t ref v && near v ref (Babs (mul64 ref t))) (bgradient b i coord))
    refGradients (idx 6).
Example test_LagrangeBasis_EqualSpacing : lagrange_test EqualSpacing (L 3 1)
  [L (-76904296875) 13; L (555419921875) 13; L (-199951171875) 12; L (999755859375) 12; L (1666259765625) 13; L (-142822265625) 13]
  [L (-64208984375) 12; L (44474283854167) 14; L (-142333984375) 11; L (-88134765625) 11; L (20747884114583) 13; L (-150634765625) 12] = true.
Proof. vm_compute. reflexivity. Qed.
Example test_LagrangeBasis_GaussLobattoSpacing : lagrange_test GaussLobattoSpacing (L 3 1)
  [L (-39331249999999) 16; L (11438606947084) 15; L (-25205197129078) 15; L (99880774621932) 14; L (26196343962672) 15; L (-73043749999999) 16]
  [L (-26265625) 8; L (76193547139425) 14; L (-16595367733139) 13; L (-16178550663066) 14; L (18258868085503) 13; L (-50384375) 8] = true.
Proof. vm_compute. reflexivity. Qed.

(** tests/geometry/shapes/testInterpolatedShape.cpp:33-155 with testInterpolatedShapeSolutions.hpp. *)
(** [LagrangeBasis< double, order, s >] with its support coordinates computed once and kept in a
    table, to save time. *)
Definition tabulated (order : Z) (s : spacing) : basis B64Num :=
  match sequenceM (map (coord_ct B64Num s (order + 1)) (idx (order + 1))) with
  | Ok t => lagrange_of B64Num order (rd t)
  | _ => LagrangeBasis B64Num order s
  end.
Definition lobatto3 (order : Z) : list (basis B64Num) := repeat (tabulated order GaussLobattoSpacing) 3.
Definition shape_test (order : Z) (coord : list b64) (refs : list (b64 * list b64)) : bool :=
  let t := L 1 12 in
  let ok ref v := check_tol t ref v && near v ref (Babs (mul64 ref t)) in
  all2 (fun ref i => ok1 (ok (fst ref)) (shape_value B64Num 3 (lobatto3 order) i coord) &&
                     ok1 (all2 ok (snd ref)) (shape_gradient B64Num 3 (lobatto3 order) i coord))
    refs (triples (order + 1) (order + 1) (order + 1)).
Example test_InterpolatedShape_O1 : shape_test 1 [L (31415) 5; L (-161803) 6; L (69314) 5]
  [(L (30564122401949) 15, [L (-445638585725) 13; L (-26307491375) 12; L (-9960282344375) 14]);
   (L (16864152448555) 14, [L (-2458868914275) 13; L (-145155008625) 12; L (9960282344375) 14]);
   (L (22050860348051) 15, [L (-321511414275) 13; L (26307491375) 12; L (-7185967655625) 14]);
   (L (12166849276445) 14, [L (-1773981085725) 13; L (145155008625) 12; L (7185967655625) 14]);
   (L (58563594743051) 15, [L (445638585725) 13; L (-50407508625) 12; L (-19084792655625) 14]);
   (L (32313225836945) 14, [L (2458868914275) 13; L (-278129991375) 12; L (19084792655625) 14]);
   (L (42251422506949) 15, [L (321511414275) 13; L (50407508625) 12; L (-13768957344375) 14]);
   (L (23312772438055) 14, [L (1773981085725) 13; L (278129991375) 12; L (13768957344375) 14])] = true.
Proof. vm_compute. reflexivity. Qed.
Example test_InterpolatedShape_O3 : shape_test 3 [L (31415) 5; L (-161803) 6; L (69314) 5]
  [(L (29480662998955) 17, [L (-22581643543929) 16; L (29510192644433) 17; L (49656139120705) 17]);
   (L (-97875857989107) 17, [L (74971100098549) 16; L (-9797389646902) 16; L (-13683638724197) 16]);
   (L (45384751099593) 16, [L (-34763881385479) 15; L (45430211258006) 16; L (-8129659246093) 15]);
   (L (16266339617432) 16, [L (-12459715815019) 15; L (16282632983769) 16; L (90014617273057) 16]);
   (L (-19359683760398) 16, [L (14829160314882) 15; L (25355097937921) 16; L (-32608735772776) 16]);
   (L (64274187405959) 16, [L (-49232840832939) 15; L (-84178974033245) 16; L (89859213275284) 16]);
   (L (-29803754035777) 15, [L (22829125312776) 14; L (39033545787594) 15; L (53386734243303) 15]);
   (L (-1068195755787) 14, [L (81821822640745) 15; L (13990005384414) 15; L (-59111781993554) 15]);
   (L (-90727558355123) 17, [L (69495634560833) 16; L (-34803363571872) 16; L (-15281814591224) 16]);
   (L (30121566864284) 16, [L (-23072564071507) 15; L (11554723415225) 15; L (42111777842445) 16]);
   (L (-13967283076256) 15, [L (10698680952879) 14; L (-53578916905431) 15; L (25019251896856) 15]);
   (L (-50060111501464) 16, [L (38345121130264) 15; L (-19203208954598) 15; L (-27702248221978) 15]);
   (L (21269185295386) 17, [L (-16291803234792) 16; L (64972463695073) 17; L (35825029581226) 17]);
   (L (-70613736183238) 17, [L (54088818146711) 16; L (-21570870472101) 16; L (-98722287063344) 17]);
   (L (32743384392556) 16, [L (-25080827890498) 15; L (10002349992036) 15; L (-58652422063787) 16]);
   (L (11735549889536) 16, [L (-89892145372337) 16; L (35849402718072) 16; L (64942147811999) 16]);
   (L (-11378239751871) 16, [L (93441519804066) 16; L (-11389636896706) 16; L (-19165086486951) 16]);
   (L (37775777911087) 16, [L (-31022602588528) 15; L (37813616453911) 16; L (5281282923909) 15]);
   (L (-17516518509386) 15, [L (1438509072481) 13; L (-17534064131803) 15; L (31376910351826) 15]);
   (L (-62780919160148) 16, [L (51557575063891) 15; L (-62843804390566) 16; L (-3474168462704) 14]);
   (L (74719867512486) 16, [L (-613621977756) 13; L (-97859530255499) 16; L (12585538311713) 15]);
   (L (-24807010418579) 15, [L (20372261490852) 14; L (32489382910104) 15; L (-34681705516492) 15]);
   (L (11502938686857) 14, [L (-94465584884176) 14; L (-15065232500118) 14; L (-20604932182538) 14]);
   (L (41227659675451) 15, [L (-33857391495072) 14; L (-53995269848398) 15; L (22814548903016) 14]);
   (L (35016848539094) 16, [L (-28756886984242) 15; L (13432568151752) 15; L (5898108542157) 15]);
   (L (-11625600465498) 15, [L (9547292022497) 14; L (-44596152159009) 15; L (-16253294733767) 15]);
   (L (53907571729144) 15, [L (-44270515836947) 14; L (20679106240493) 14; L (-96563312197209) 15]);
   (L (19321002064616) 15, [L (-15866986778498) 14; L (74115943558812) 15; L (10691849838882) 14]);
   (L (-82089703893853) 17, [L (67414528603565) 16; L (-25076514365314) 16; L (-1382688631214) 15]);
   (L (27253797517944) 16, [L (-223816364925) 13; L (83254076035137) 16; L (381024623191) 14]);
   (L (-12637506758901) 15, [L (10378299841078) 14; L (-3860467327195) 14; L (22637256166639) 15]);
   (L (-45294062846522) 16, [L (37196843824493) 15; L (-13836293271357) 15; L (-25064813767335) 15]);
   (L (-65104039128026) 16, [L (-40125981661865) 16; L (-65169251338304) 16; L (-10965883719697) 15]);
   (L (21614553541207) 15, [L (13321833647192) 15; L (21636204007591) 15; L (3021845712715) 14]);
   (L (-10022605704316) 14, [L (-6177295573085) 14; L (-10032644962702) 14; L (17953247987466) 14]);
   (L (-3592200117618) 14, [L (-22140032780737) 15; L (-35957982862196) 15; L (-19878505328211) 14]);
   (L (42753231468636) 15, [L (26350367886122) 15; L (-55993289170731) 15; L (72011962883654) 15]);
   (L (-14194081089519) 14, [L (-87483272179944) 15; L (18589782799022) 14; L (-19844186466549) 14]);
   (L (65817541789208) 14, [L (40565739241913) 14; L (-86200282956703) 14; L (-117897349704) 11]);
   (L (235896520657) 12, [L (14539158535719) 14; L (-30895026274696) 14; L (13054033988218) 13]);
   (L (20035948680501) 15, [L (12348882190718) 15; L (76858500226076) 15; L (33747811408771) 15]);
   (L (-66519388244399) 15, [L (-40998312679255) 15; L (-25517036891775) 14; L (-92998140255612) 15]);
   (L (30844847144075) 14, [L (19010798522536) 14; L (11832175900427) 13; L (-55251618815512) 14]);
   (L (11055095531807) 14, [L (68136565184096) 15; L (42407678117962) 14; L (61176651700196) 14]);
   (L (-46970106192697) 16, [L (-28949380790918) 16; L (-14348285921515) 15; L (-79114710808963) 16]);
   (L (15594084310833) 15, [L (9611200003422) 15; L (47636336919934) 15; L (21801475903062) 15]);
   (L (-72309316067706) 15, [L (-44566855288488) 15; L (-22088831084864) 14; L (12952590588379) 14]);
   (L (-2591636759405) 14, [L (-15973197742402) 15; L (-79168535570466) 15; L (-14341591070595) 14]);
   (L (56487589531351) 17, [L (-30733894598271) 16; L (56544170975696) 17; L (95145607968906) 17]);
   (L (-18753890614039) 16, [L (1020365893148) 14; L (-18772675664469) 16; L (-26219076808928) 16]);
   (L (86961246128934) 16, [L (-4731407013177) 14; L (87048351862227) 16; L (-15577154914709) 15]);
   (L (31167762933947) 16, [L (-16957826468134) 15; L (31198982482497) 16; L (17247606515913) 15]);
   (L (-37094887240253) 16, [L (20182669574596) 15; L (48582637537536) 16; L (-62481257003417) 16]);
   (L (12315509714885) 15, [L (-67006501895641) 15; L (-16129445028182) 15; L (17217829718701) 15]);
   (L (-57106660882287) 15, [L (31070720329486) 14; L (74791768166169) 15; L (10229376220141) 14]);
   (L (-20467586971896) 15, [L (11136050695279) 14; L (26806102757057) 15; L (-11326346621977) 14]);
   (L (-17384212409767) 16, [L (94584413374409) 16; L (-6668636033823) 15; L (-29281324845166) 16]);
   (L (57715618713565) 16, [L (-31402043474208) 15; L (22139884488033) 15; L (8068993635875) 15]);
   (L (-26762564780435) 15, [L (14561036361532) 14; L (-102662001387) 12; L (47939126456591) 15]);
   (L (-95919655215643) 16, [L (52188181470621) 15; L (-36795067504097) 15; L (-53079987607949) 15]);
   (L (40753663127406) 17, [L (-22173344577856) 16; L (12449305703125) 16; L (68643963875728) 17]);
   (L (-13530224014756) 16, [L (7361554674407) 15; L (-41331718934041) 16; L (-1891607400223) 15]);
   (L (62739255813192) 16, [L (-3413531523179) 14; L (19165398034606) 15; L (-11238329147062) 15]);
   (L (22486364201113) 16, [L (-12234431544858) 15; L (68690664987904) 16; L (12443496908528) 15])] = true.
Proof. vm_compute. reflexivity. Qed.

(** tests/discretizations/finiteElementMethod/testParentElement.cpp:45-235. *)
Definition parent_test (c : ctx) (order : Z) (coord field : list b64) (refValue : b64) (refGradient : list b64) : bool :=
  let t := L 1 12 in
  let ok ref v := check_tol t ref v && near v ref (Babs (mul64 ref t)) in
  let n := order + 1 in
  let var i := fetch c (const_array [n; n; n]) {| brackets := 0; last := Paren |} i field in
  ok1 (ok refValue) (parent_value B64Num 3 (lobatto3 order) var coord) &&
  ok1 (all2 ok refGradient) (parent_gradient B64Num c 3 (lobatto3 order) var coord).
Example test_ParentElement_O1_host : parent_test host 1 [L (31415) 5; L (-161803) 6; L (69314) 5]
  [L (75321698514839) 14; L (43928500403754) 15; L (-82755314609174) 14; L (-24417409139023) 14; L (-97671085406151) 14; L (85453232668432) 14; L (87513533902136) 15; L (-41336659055151) 15]
  (L (19546114484888) 14) [L (18762801054421) 14; L (-27892876405183) 14; L (30302193042302) 14] = true.
Proof. vm_compute. reflexivity. Qed.
Example test_ParentElement_O1_constant : parent_test constant 1 [L (31415) 5; L (-161803) 6; L (69314) 5]
  [L (75321698514839) 14; L (43928500403754) 15; L (-82755314609174) 14; L (-24417409139023) 14; L (-97671085406151) 14; L (85453232668432) 14; L (87513533902136) 15; L (-41336659055151) 15]
  (L (19546114484888) 14) [L (18762801054421) 14; L (-27892876405183) 14; L (30302193042302) 14] = true.
Proof. vm_compute. reflexivity. Qed.
Example test_ParentElement_O3_host : parent_test host 3 [L (31415) 5; L (-161803) 6; L (69314) 5]
  [L (75321698514839) 14; L (43928500403754) 15; L (-82755314609174) 14; L (-24417409139023) 14; L (-97671085406151) 14; L (85453232668432) 14; L (87513533902136) 15; L (-41336659055151) 15; L (-50930154443859) 14; L (51979200312318) 14; L (96998599508861) 14; L (-56590975687332) 14; L (-81965626149824) 15; L (76945833740991) 14; L (1677085719803) 13; L (-47205366499994) 14; L (83912032472826) 14; L (-15232955420577) 14; L (97458062333262) 14; L (17588531238907) 14; L (-83439021321014) 14; L (58042926096295) 14; L (39231786572069) 14; L (50373246771709) 14; L (-19690154632734) 14; L (26548251523734) 14; L (64878944174577) 14; L (-78892331571369) 14; L (-57476701102634) 15; L (-38000100540515) 14; L (56360464169372) 14; L (-56726393971425) 14; L (-57679390444802) 14; L (75875590367842) 14; L (-18369900352008) 14; L (35735232771115) 14; L (71207507000379) 14; L (-98436408586698) 14; L (30360304171591) 14; L (-3522210520638) 13; L (31575877583795) 14; L (53395391736692) 14; L (21200301642118) 14; L (-94894741267982) 14; L (23239011510346) 14; L (23202839452223) 14; L (69368646162036) 14; L (-21906790427127) 14; L (87616166398538) 14; L (-24685540701046) 14; L (80172883854487) 14; L (-75819705120112) 14; L (-54601148928802) 14; L (97267584128641) 14; L (62933378989992) 14; L (-70069407632118) 14; L (81158931783762) 14; L (-51941755373757) 14; L (-59755364127609) 14; L (-90505968109323) 14; L (39469344992863) 14; L (-7569937332484) 13; L (24030904537321) 14; L (64377524701047) 14]
  (L (25230798990974) 14) [L (-23132556090577) 14; L (-71640960094542) 14; L (-11388626399789) 13] = true.
Proof. vm_compute. reflexivity. Qed.

(** tests/geometry/mapping/testLinearTransform.cpp:33-343. *)
Definition equal3 : list (basis B64Num) := repeat (tabulated 1 EqualSpacing) 3.
Definition Xref : list (list b64) :=
  [[L (-131) 2; L (-115) 2; L (-123) 2];
   [L (138) 2; L (-122) 2; L (-117) 2];
   [L (-131) 2; L (112) 2; L (-131) 2];
   [L (132) 2; L (117) 2; L (-137) 2];
   [L (-123) 2; L (-125) 2; L (127) 2];
   [L (127) 2; L (-134) 2; L (124) 2];
   [L (-129) 2; L (128) 2; L (141) 2];
   [L (139) 2; L (124) 2; L (136) 2]].
Definition qCoords : list (list b64) :=
  [[L (-9) 1; L (-5) 1; L (-6) 1];
   [L (-9) 1; L (-5) 1; L (6) 1];
   [L (-9) 1; L (5) 1; L (-6) 1];
   [L (-9) 1; L (5) 1; L (6) 1];
   [L (9) 1; L (-5) 1; L (-6) 1];
   [L (9) 1; L (-5) 1; L (6) 1];
   [L (9) 1; L (5) 1; L (-6) 1];
   [L (9) 1; L (5) 1; L (6) 1]].
Definition Jref : list (list b64) :=
  [[L (13245) 4; L (-63) 4; L (2925) 5; L (-2375) 5; L (116365) 5; L (-184375) 7; L (85) 4; L (-205) 4; L (1275875) 6];
   [L (12855) 4; L (-207) 4; L (2925) 5; L (-35) 3; L (12406) 4; L (-184375) 7; L (-11) 3; L (47) 3; L (1275875) 6];
   [L (13215) 4; L (-63) 4; L (1725) 5; L (275) 5; L (116365) 5; L (456875) 7; L (-165) 4; L (-205) 4; L (1332125) 6];
   [L (13185) 4; L (-207) 4; L (1725) 5; L (-19) 3; L (12406) 4; L (456875) 7; L (-21) 3; L (47) 3; L (1332125) 6];
   [L (13245) 4; L (-117) 4; L (-2925) 5; L (-2375) 5; L (121135) 5; L (-353125) 7; L (85) 4; L (-655) 4; L (1246625) 6];
   [L (12855) 4; L (387) 4; L (-2925) 5; L (-35) 3; L (12694) 4; L (-353125) 7; L (-11) 3; L (29) 3; L (1246625) 6];
   [L (13215) 4; L (-117) 4; L (1275) 5; L (275) 5; L (121135) 5; L (130625) 7; L (-165) 4; L (-655) 4; L (1325375) 6];
   [L (13185) 4; L (387) 4; L (1275) 5; L (-19) 3; L (12694) 4; L (130625) 7; L (-21) 3; L (29) 3; L (1325375) 6]].
Definition invJref : list (list b64) :=
  [[L (75518050317544) 14; L (37845098812477) 16; L (-1725815837519) 14; L (15337360823102) 15; L (85966062432681) 14; L (12071225595728) 15; L (-4784652399426) 15; L (13787302411842) 15; L (78408476886129) 14];
   [L (77812816372463) 14; L (13651790001633) 15; L (-17641652913326) 15; L (22040308761543) 15; L (80600721432107) 14; L (11142219247787) 15; L (58967495163542) 16; L (-2957356275738) 14; L (78321329088924) 14];
   [L (7565836884692) 13; L (39211774440993) 16; L (-9931663635598) 15; L (-21546321329131) 16; L (85883484385508) 14; L (-29427305638987) 15; L (9338058291089) 15; L (13265131820855) 15; L (7501044329807) 13];
   [L (75846203705445) 14; L (13044334658016) 15; L (-10268881057617) 15; L (11190189368391) 15; L (80730273673882) 14; L (-2783272932447) 14; L (11561800790338) 15; L (-28277599773975) 15; L (75150041608411) 14];
   [L (75503486460179) 14; L (82631892175591) 16; L (17949715158005) 15; L (14675786248095) 15; L (82695222317457) 14; L (23768989975822) 15; L (-43770438984178) 16; L (43393268632977) 15; L (80329232629265) 14];
   [L (77740146085247) 14; L (-2410163122351) 14; L (17557728970103) 15; L (21611414506272) 15; L (78659427371398) 14; L (22788524347605) 15; L (63569117005477) 16; L (-18511061370632) 15; L (80179064900238) 14];
   [L (75660974382485) 14; L (69105787290405) 16; L (-7346632966832) 15; L (-18182541770253) 16; L (82506893149255) 14; L (-81141414142144) 16; L (93294087518739) 16; L (40860918277311) 15; L (75401098126448) 14];
   [L (75799440223966) 14; L (-22947438633317) 15; L (-70656815704294) 16; L (11224373599541) 15; L (78761135930028) 14; L (-78704397957213) 16; L (11764501075278) 15; L (-17597001324914) 15; L (75456369966319) 14]].
Definition detJref : list b64 := [L (19654823830313) 13; L (2035290793125) 12; L (20500889374688) 13; L (217609699875) 11; L (19969756307812) 13; L (20369010315) 10; L (21230873817188) 13; L (2219082631125) 12].
(** [makeLinearTransform( Xref )]: an uninitialised object, then setData. *)
Definition cell : outcome (list b64) :=
  setData B64Num host equal3 (fun k i => row <- rd Xref k ;; rd row i) 20 (repeat (ofI 0) 24).
(** testConstructionAndSetters. *)
Example test_setData : ok1 (fun m => forallb (fun t =>
    match t with
    | [a; b; c] => forallb (fun j =>
        match fetch host (const_array [2; 2; 2; 3]) {| brackets := 0; last := Paren |} [a; b; c; j] m, rd Xref (a + 2 * b + 4 * c) with
        | Ok v, Ok row => ok1 (same v) (rd row j)
        | _, _ => false
        end) (idx 3)
    | _ => false
    end) (triples 2 2 2)) cell = true.
Proof. vm_compute. reflexivity. Qed.
(** testJacobianFunctionModifyLvalueRefArg. *)
Example test_jacobian_reference : ok1 (fun m => all2 (fun q ref =>
    ok1 (all2 (near_rel (L 1 13)) ref) (jacobian_point B64Num host 3 equal3 m q (repeat (ofI 0) 9))) qCoords Jref) cell = true.
Proof. vm_compute. reflexivity. Qed.
(** testJacobianFunctionReturnByValue. *)
Example test_jacobian_value : ok1 (fun m => all2 (fun q ref =>
    ok1 (all2 (near_rel (L 1 13)) ref) (jacobian_wrapper B64Num host 3 equal3 m q)) qCoords Jref) cell = true.
Proof. vm_compute. reflexivity. Qed.
(** testInvJacobianFunctionModifyLvalueRefArg. *)
Example test_inverse_reference : ok1 (fun m => all2 (fun q ref =>
    ok1 (fun r => all2 (near_rel (L 1 13)) (snd ref) (fst r) && near (snd r) (fst ref) (mul64 (fst ref) (L 1 13)))
      (inverseJacobian_point B64Num host 3 equal3 m q (repeat (ofI 0) 9))) qCoords (combine detJref invJref)) cell = true.
Proof. vm_compute. reflexivity. Qed.
(** testInvJacobianFunctionReturnByValue. *)
Example test_inverse_value : ok1 (fun m => all2 (fun q ref =>
    ok1 (fun r => all2 (near_rel (L 1 13)) (snd ref) (snd r) && near (fst r) (fst ref) (mul64 (fst ref) (L 1 13)))
      (inverseJacobian_wrapper B64Num host 3 equal3 m q)) qCoords (combine detJref invJref)) cell = true.
Proof. vm_compute. reflexivity. Qed.

(** tests/geometry/mapping/testScaling.cpp:36-168; the parameters [J] and [invJ] of the
    three-argument forms are uninitialised: any contents will do. *)
Definition h3 : list b64 := [I 10; I 20; I 30].
Definition scaling_cell : outcome (list b64) := scaling_setData B64Num h3 (scaling_default B64Num).
Definition junk : list b64 := [B754_nan; L 5 1; B754_infinity true].
Definition half_h : list b64 := map (fun h => div64 h (I 2)) h3.
Definition inv_h : list b64 := map (fun h => div64 (I 2) h) h3.
Definition det_h : b64 := mul64 (mul64 (mul64 (L 125 3) (I 10)) (I 20)) (I 30).
Example test_Scaling : ok1 (fun m => all2 same h3 (scaling_getData B64Num m) &&
  ok1 (all2 same half_h) (scaling_jacobian B64Num host m junk) &&
  ok1 (all2 same half_h) (scaling_jacobian_wrapper B64Num host m) &&
  ok1 (fun r => all2 same inv_h (fst r) && same det_h (snd r)) (scaling_inverseJacobian B64Num host m junk) &&
  ok1 (fun r => all2 same inv_h (snd r) && same det_h (fst r)) (scaling_inverseJacobian_wrapper B64Num host m))
  scaling_cell = true.
Proof. vm_compute. reflexivity. Qed.

(** tests/geometry/mapping/testUniformScaling.cpp:26-112. *)
Definition h1 : b64 := L 314 2.
Definition uniform_cell : b64 := uniform_setData B64Num h1 (uniform_default B64Num).
Definition det_u : b64 := mul64 (mul64 (mul64 (L 125 3) h1) h1) h1.
Example test_UniformScaling : (let m := uniform_cell in same h1 (uniform_getData B64Num m) &&
  ok1 (all2 same [div64 h1 (I 2)]) (uniform_jacobian B64Num host m [B754_nan]) &&
  ok1 (all2 same [div64 h1 (I 2)]) (uniform_jacobian_wrapper B64Num host m) &&
  ok1 (fun r => all2 same [div64 (I 2) h1] (fst r) && same det_u (snd r)) (uniform_inverseJacobian B64Num host m [B754_nan]) &&
  ok1 (fun r => all2 same [div64 (I 2) h1] (snd r) && same det_u (fst r)) (uniform_inverseJacobian_wrapper B64Num host m) &&
  uniform_jacobianIsConstInCell) = true.
Proof. vm_compute. reflexivity. Qed.

(** tests/geometry/shapes/testNCube.cpp:23-138 and testNSimplex.cpp:23-138.  The entries: N,
    MIN, MAX, DIVISOR; vertices, edges, faces, cells, hyperfaces; minCoord, maxCoord,
    length, volume. *)
Definition geometry_test (nv ne nf nc nh : Z -> outcome Z) (vol : Z -> Z -> Z -> Z -> outcome b64)
  (e : list Z * list Z * list b64) : bool :=
  match e with
  | ([N; MIN; MAX; DIV], [v; ed; f; c; hf], [lo; hi; len; V]) =>
      okZ v (nv N) && okZ ed (ne N) && okZ f (nf N) && okZ c (nc N) && okZ hf (nh N) &&
      ok1 (check_tol (L 1 12) lo) (minCoord B64Num MIN MAX DIV) &&
      ok1 (check_tol (L 1 12) hi) (maxCoord B64Num MIN MAX DIV) &&
      ok1 (check_tol (L 1 12) len) (length_ B64Num MIN MAX DIV) &&
      ok1 (check_tol (L 1 12) V) (vol MIN MAX DIV N)
  | _ => false
  end.
Example test_NCube : forallb (geometry_test cube_numVertices cube_numEdges cube_numFaces cube_numCells cube_numHyperFaces
    (cube_volume B64Num))
  [([1; 0; 1; 1], [2; 1; 0; 0; 2], [L (0) 1; L (10) 1; L (10) 1; L (10) 1]);
   ([1; (-1); 1; 2], [2; 1; 0; 0; 2], [L (-5) 1; L (5) 1; L (10) 1; L (10) 1]);
   ([1; (-1); 1; 1], [2; 1; 0; 0; 2], [L (-10) 1; L (10) 1; L (20) 1; L (20) 1]);
   ([2; 0; 1; 1], [4; 4; 1; 0; 4], [L (0) 1; L (10) 1; L (10) 1; L (10) 1]);
   ([2; (-1); 1; 2], [4; 4; 1; 0; 4], [L (-5) 1; L (5) 1; L (10) 1; L (10) 1]);
   ([2; (-1); 1; 1], [4; 4; 1; 0; 4], [L (-10) 1; L (10) 1; L (20) 1; L (40) 1]);
   ([3; 0; 1; 1], [8; 12; 6; 1; 6], [L (0) 1; L (10) 1; L (10) 1; L (10) 1]);
   ([3; (-1); 1; 2], [8; 12; 6; 1; 6], [L (-5) 1; L (5) 1; L (10) 1; L (10) 1]);
   ([3; (-1); 1; 1], [8; 12; 6; 1; 6], [L (-10) 1; L (10) 1; L (20) 1; L (80) 1]);
   ([4; 0; 1; 1], [16; 32; 24; 8; 8], [L (0) 1; L (10) 1; L (10) 1; L (10) 1]);
   ([4; (-1); 1; 2], [16; 32; 24; 8; 8], [L (-5) 1; L (5) 1; L (10) 1; L (10) 1]);
   ([4; (-1); 1; 1], [16; 32; 24; 8; 8], [L (-10) 1; L (10) 1; L (20) 1; L (160) 1])] = true.
Proof. vm_compute. reflexivity. Qed.
Example test_NSimplex : forallb (geometry_test simplex_numVertices simplex_numEdges simplex_numFaces simplex_numCells simplex_numHyperFaces
    (simplex_volume B64Num))
  [([1; 0; 1; 1], [2; 1; 0; 0; 2], [L (0) 1; L (10) 1; L (10) 1; L (10) 1]);
   ([1; (-1); 1; 1], [2; 1; 0; 0; 2], [L (-10) 1; L (10) 1; L (20) 1; L (20) 1]);
   ([1; (-1); 1; 2], [2; 1; 0; 0; 2], [L (-5) 1; L (5) 1; L (10) 1; L (10) 1]);
   ([2; 0; 1; 1], [3; 3; 1; 0; 3], [L (0) 1; L (10) 1; L (10) 1; L (5) 1]);
   ([2; (-1); 1; 1], [3; 3; 1; 0; 3], [L (-10) 1; L (10) 1; L (20) 1; L (20) 1]);
   ([2; (-1); 1; 2], [3; 3; 1; 0; 3], [L (-5) 1; L (5) 1; L (10) 1; L (5) 1]);
   ([3; 0; 1; 1], [4; 6; 4; 1; 4], [L (0) 1; L (10) 1; L (10) 1; div64 (L (10) 1) (L (60) 1)]);
   ([3; (-1); 1; 1], [4; 6; 4; 1; 4], [L (-10) 1; L (10) 1; L (20) 1; div64 (L (80) 1) (L (60) 1)]);
   ([3; (-1); 1; 2], [4; 6; 4; 1; 4], [L (-5) 1; L (5) 1; L (10) 1; div64 (L (10) 1) (L (60) 1)]);
   ([4; 0; 1; 1], [5; 10; 10; 5; 5], [L (0) 1; L (10) 1; L (10) 1; div64 (L (10) 1) (L (240) 1)]);
   ([4; (-1); 1; 1], [5; 10; 10; 5; 5], [L (-10) 1; L (10) 1; L (20) 1; div64 (L (160) 1) (L (240) 1)]);
   ([4; (-1); 1; 2], [5; 10; 10; 5; 5], [L (-5) 1; L (5) 1; L (10) 1; div64 (L (10) 1) (L (240) 1)])] = true.
Proof. vm_compute. reflexivity. Qed.

(** tests/common/testIndexTypes.cpp:23-116. *)
Example test_LinearIndexType : forallb (fun i => okZ i (ModelIndex.linearIndex_scalar i)) (idx 10) = true.
Proof. vm_compute. reflexivity. Qed.
Example test_MultiIndexManualLoop : all2 (fun t k => okZ k (ModelIndex.linearIndex [2; 2; 2] t)) (triples 2 2 2) (idx 8) = true.
Proof. vm_compute. reflexivity. Qed.
Example test_MultiIndexForRange : ok1 (fun r => all2 Z.eqb (snd r) (idx 8))
  (ModelIndex.forRange (ModelIndex.reading (fun i kdata =>
      a <- rd i 0 ;; b <- rd i 1 ;; c <- rd i 2 ;; k <- ModelIndex.linearIndex [2; 2; 2] i ;;
      wr kdata (4 * a + 2 * b + c) k)) [2; 2; 2] 20 [0; 0; 0] (repeat 99 8)) = true.
Proof. vm_compute. reflexivity. Qed.

(** tests/common/testSequenceUtilities.cpp:22-117 and testNestedSequenceUtilities.cpp:22-96. *)
Definition h : list Z := [11; 22; 33; 44; 55; 66; 77; 88; 99; 100].
Example test_SequenceExpansionLambda : okZ 595 (executeSequence 10 (lambda_pack (fun (_ : list Z) a =>
  fold_unary_right iadd (map (rd h) a))) [] []) = true.
Proof. vm_compute. reflexivity. Qed.
Example test_NestedSequenceExpansionLambda : okZ 354025 (executeSequence 10 (lambda_pack (fun (_ : list Z) a =>
  fold_unary_right iadd (map (fun aa => executeSequence 10 (lambda_pack (fun (_ : list Z) b =>
    fold_unary_right iadd (map (fun k => x <- rd h aa ;; y <- rd h k ;; imul x y) b))) [] []) a))) [] []) = true.
Proof. vm_compute. reflexivity. Qed.
Example test_ForSequenceLambda : okZ 595 (forSequence 10 (fun a s => x <- rd h a ;; iadd s x) 0) = true.
Proof. vm_compute. reflexivity. Qed.
Definition sum_h (ix : list Z) (s : Z) : outcome Z :=
  t <- (match map (rd h) ix with
        | [] => IllFormed
        | x :: l => fold_left (fun x y => x <- x ;; y <- y ;; iadd x y) l x
        end) ;; iadd s t.
Example test_ForNestedSequence1 : okZ 595 (forNestedSequence [10] sum_h 0) = true.
Proof. vm_compute. reflexivity. Qed.
Example test_ForNestedSequence2 : okZ 8720 (forNestedSequence [10; 8] sum_h 0) = true.
Proof. vm_compute. reflexivity. Qed.
Example test_ForNestedSequence5 : okZ 735360 (forNestedSequence [10; 8; 6; 4; 2] sum_h 0) = true.
Proof. vm_compute. reflexivity. Qed.

(** tests/common/testCArray.cpp:24-413. *)
Example test_SingleValueInitialization : ok1 (fun l => all2 same (repeat (I 0) 24) l) (list_init (I 0) [2; 3; 4] [I 0]) = true.
Proof. vm_compute. reflexivity. Qed.
Example test_ViewInitialization : ok1 (fun l => all2 Z.eqb l (map (fun t => match t with [a; b; c] => 100 * a + 10 * b + c | _ => 0 end) (triples 2 3 4)))
  (fold_left (fun m t => m <- m ;; match t with [a; b; c] => put host (view_of [2; 3; 4] false) {| brackets := 0; last := Paren |} t (100 * a + 10 * b + c) m | _ => IllFormed end)
     (triples 2 3 4) (Ok (repeat 0 24))) = true.
Proof. vm_compute. reflexivity. Qed.
Example test_Traits : (rank [2; 3; 4] =? 3) && okZ 2 (extent 0 [2; 3; 4]) && okZ 3 (extent 1 [2; 3; 4]) && okZ 4 (extent 2 [2; 3; 4]) && okZ 24 (size [2; 3; 4]) = true.
Proof. vm_compute. reflexivity. Qed.
Example test_Strides : okZ 1 (stride [2]) && okZ 4 (stride [3; 4]) && okZ 12 (stride [2; 3; 4]) = true.
Proof. vm_compute. reflexivity. Qed.
Example test_LinearIndex : all2 (fun t k => okZ k (level_ct [2; 3; 4] t) && okZ k (level_rt constant [2; 3; 4] t) && okZ k (level_rt host [2; 3; 4] t))
  (triples 2 3 4) (idx 24) = true.
Proof. vm_compute. reflexivity. Qed.
(** [initializer< Array3d >]: the values k * 3.14159. *)
Definition array3d : list b64 := map (fun k => mul64 (ofI k) (L 314159 5)) (idx 24).
Definition const_elements : arr := {| base := 0; dims := [2; 3; 4]; elt_const := true; obj_const := true |}.
Example test_ParenthesesOperatorCT : all2 (fun t k =>
    ok1 (check_tol (L 1 12) (mul64 (L 314159 5) (ofI k))) (fetch constant const_elements {| brackets := 0; last := ParenCT |} t array3d) &&
    ok1 (check_tol (L 1 12) (mul64 (L 314159 5) (ofI k))) (fetch constant const_elements {| brackets := 0; last := Paren |} t array3d))
  (triples 2 3 4) (idx 24) = true.
Proof. vm_compute. reflexivity. Qed.
Example test_ParenthesesOperatorRT : all2 (fun t k =>
    ok1 (same (mul64 (L 314159 5) (ofI k))) (fetch host const_elements {| brackets := 0; last := Paren |} t array3d))
  (triples 2 3 4) (idx 24) = true.
Proof. vm_compute. reflexivity. Qed.

(** for ( int i = lower; i <= upper; ++i ). *)
Definition upto (lower upper : Z) : list Z := map (fun k => lower + Z.of_nat k) (seq 0 (Z.to_nat (upper - lower + 1))).
Definition each {S} (l : list Z) (f : Z -> S -> outcome S) (s : outcome S) : outcome S :=
  fold_left (fun s i => s <- s ;; f i s) l s.
Definition store1 (DIM lower upper : Z) : outcome (list Z) :=
  each (upto lower upper) (fun i m => put host (owning [DIM]) {| brackets := 0; last := Paren |} [i] i m) (list_init 0 [DIM] [0]).
Example test_BoundsCheckParenthesesOperator1d :
  ok1 (fun m => all2 Z.eqb [0; 1] m) (store1 2 0 1) && dies (store1 2 (-1) (-1)) && dies (store1 2 2 2) = true.
Proof. vm_compute. reflexivity. Qed.
Definition store2 (il iu jl ju : Z) : outcome (list Z) :=
  each (upto il iu) (fun i m => each (upto jl ju) (fun j m =>
    put host (owning [2; 4]) {| brackets := 0; last := Paren |} [i; j] (i * 4 + j) m) (Ok m)) (list_init 0 [2; 4] [0]).
Example test_BoundsCheckParenthesesOperator2d : ok1 (fun m => all2 Z.eqb (idx 8) m) (store2 0 1 0 3) &&
  forallb (fun t => match t with (il, iu, jl, ju) => dies (store2 il iu jl ju) end)
    [(-1, -1, 0, 3); (2, 2, 0, 3); (0, 1, -1, -1); (0, 1, 4, 4); (-1, -1, -1, -1); (-1, -1, 4, 4); (2, 2, -1, -1); (2, 2, 4, 4)] = true.
Proof. vm_compute. reflexivity. Qed.
Definition square1 (DIM lower upper : Z) : outcome (list Z) :=
  each (upto lower upper) (fun i m =>
    m <- put host (owning [DIM]) {| brackets := 1; last := Paren |} [i] i m ;;
    v <- fetch host (owning [DIM]) {| brackets := 0; last := Paren |} [i] m ;; _ <- ASSERT_MSG host (v =? i) ;;
    v <- fetch host (const_array [DIM]) {| brackets := 1; last := Paren |} [i] m ;; _ <- ASSERT_MSG host (v =? i) ;;
    Ok m) (list_init 0 [DIM] [0]).
Example test_SquareBracketOperator1D :
  ok1 (fun m => all2 Z.eqb [0; 1; 2] m) (square1 3 0 2) && dies (square1 2 (-1) (-1)) && dies (square1 2 3 3) = true.
Proof. vm_compute. reflexivity. Qed.
Definition br1 : path := {| brackets := 1; last := Paren |}.
Definition pr : path := {| brackets := 0; last := Paren |}.
Definition square2 : outcome (list Z) :=
  m <- list_init 0 [2; 4] [0] ;;
  let a := owning [2; 4] in
  let ca := const_array [2; 4] in
  let slice x k := r <- bracket host (buflen m) x k ;; match r with inl s => Ok s | inr _ => IllFormed end in
  slice0 <- slice a 0 ;; slice1 <- slice a 1 ;; cslice0 <- slice ca 0 ;; cslice1 <- slice ca 1 ;;
  p0 <- paren host (buflen m) a [0; 0] ;; p1 <- paren host (buflen m) a [1; 0] ;;
  _ <- ASSERT_MSG host (base slice0 =? addr p0) ;; _ <- ASSERT_MSG host (base slice1 =? addr p1) ;;
  _ <- ASSERT_MSG host (base cslice0 =? addr p0) ;; _ <- ASSERT_MSG host (base cslice1 =? addr p1) ;;
  each (idx 4) (fun i m =>
    m <- put host slice0 br1 [i] (i + 1) m ;; m <- put host slice1 br1 [i] (100 + i + 1) m ;;
    v0 <- fetch host a pr [0; i] m ;; v1 <- fetch host a pr [1; i] m ;;
    _ <- ASSERT_MSG host (v0 =? i + 1) ;; _ <- ASSERT_MSG host (v1 =? 100 + i + 1) ;;
    s0 <- fetch host slice0 br1 [i] m ;; s1 <- fetch host slice1 br1 [i] m ;;
    c0 <- fetch host cslice0 br1 [i] m ;; c1 <- fetch host cslice1 br1 [i] m ;;
    _ <- ASSERT_MSG host (s0 =? c0) ;; _ <- ASSERT_MSG host (s1 =? c1) ;; Ok m) (Ok m).
Example test_SquareBracketOperator2D : ok1 (fun m => all2 Z.eqb [1; 2; 3; 4; 101; 102; 103; 104] m) square2 = true.
Proof. vm_compute. reflexivity. Qed.

(** tests/common/testShivaErrorHandling.cpp:22-39, on the host and on a CUDA device (the
    synchronisation reports the trap of the kernel). *)
Definition assertion_test (b : backend) (t : target) (callAbort : bool) : outcome (ending * bool * bool * unit) :=
  _ <- shivaAssertionFailed Host callAbort ;;
  genericKernelWrapper_plain b true false tt (fun _ => shivaAssertionFailed t callAbort) callAbort tt.
Example test_shivaAssertionFailed : dies (assertion_test NoDevice Host true) && dies (assertion_test Cuda DeviceCuda true) = true.
Proof. vm_compute. reflexivity. Qed.
Example test_shivaAssertionFailed_NoDeath :
  assertion_test NoDevice Host false = Ok (Returned, true, false, tt) /\
  assertion_test Cuda DeviceCuda false = Ok (Returned, true, true, tt).
Proof. vm_compute. split; reflexivity. Qed.
