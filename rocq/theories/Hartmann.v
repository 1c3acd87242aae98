(** * The Hartmann problems: a verified bound for a sum of four Gaussians.

    For every x in R^n,  sum_i alpha_i exp (- Q_i x) <= M  where Q_i x = sum_j A_ij (x_j - P_ij)^2.
    The space of the vectors (Q_1 x, ..., Q_4 x) is divided into boxes by a certificate tree.  In a
    box [l, u], for multipliers lambda >= 0,
      sum_i alpha_i exp (- q_i) <= sum_i max over {l_i, u_i} of (alpha_i exp (- q) + lambda_i q) - min over x of sum_i lambda_i Q_i x
    because the summands are convex in q.  [check] evaluates this bound with integers. *)
From Coq Require Import List Arith ZArith Lia Bool Reals Lra Psatz.
From Verif Require Import Base Box Lin LinProofs Problems ProblemSpec ProblemProofs.
Import ListNotations.

Set Implicit Arguments.
Local Open Scope R_scope.

(** ** Bounds for exp *)
Lemma exp_lower4 : forall h, 0 <= h -> 1 + h + h ^ 2 / 2 + h ^ 3 / 6 <= exp h.
Proof.
  intros h Hh. unfold exp. destruct (exist_exp h) as [l Hl]. simpl proj1_sig. unfold exp_in, infinite_sum in Hl.
  assert (C : Un_cv (sum_f_R0 (fun i => / INR (fact i) * h ^ i)) l) by exact Hl.
  pose proof (@sum_incr (fun i => / INR (fact i) * h ^ i) 3 l C) as A.
  assert (B : sum_f_R0 (fun i => / INR (fact i) * h ^ i) 3 <= l).
  { apply A. intros k. apply Rmult_le_pos; [left; apply Rinv_0_lt_compat; apply INR_fact_lt_0|apply pow_le; exact Hh]. }
  cbn [sum_f_R0] in B. simpl in B. lra.
Qed.

Lemma exp_neg_inv : forall h, exp (- h) = / exp h.
Proof. intros h. apply exp_Ropp. Qed.

(** exp (- k / 64) <= Eup k / DD *)
Definition DD : Z := 1099511627776.     (* 2^40 *)
Definition rn : Z := 6 * 64 ^ 3.
Definition rd : Z := 6 * 64 ^ 3 + 6 * 64 ^ 2 + 3 * 64 + 1.

Lemma IZR_div_le : forall a b, (0 < b)%Z -> IZR (a / b) <= IZR a / IZR b.
Proof.
  intros a b Hb. assert (Hb' : 0 < IZR b) by (apply IZR_lt; exact Hb).
  apply Rmult_le_reg_r with (IZR b); [exact Hb'|]. replace (IZR a / IZR b * IZR b) with (IZR a) by (field; lra).
  rewrite <- mult_IZR. apply IZR_le. rewrite Z.mul_comm. apply Z.mul_div_le. exact Hb.
Qed.
Lemma IZR_div_ge : forall a b, (0 < b)%Z -> IZR a / IZR b <= IZR (a / b + 1).
Proof.
  intros a b Hb. assert (Hb' : 0 < IZR b) by (apply IZR_lt; exact Hb).
  apply Rmult_le_reg_r with (IZR b); [exact Hb'|]. replace (IZR a / IZR b * IZR b) with (IZR a) by (field; lra).
  rewrite <- mult_IZR. apply IZR_le. pose proof (Z.mul_succ_div_gt a b Hb). lia.
Qed.

(** the same bounds as a table, checked by multiplications only *)
Fixpoint tab_ok (v : Z) (t : list Z) : bool := match t with [] => true | v' :: t' => (v * rn <=? v' * rd)%Z && tab_ok v' t' end.
Lemma tab_ok_sound : forall t v k0 k, tab_ok v t = true -> exp (- (INR k0 / 64)) <= IZR v / IZR DD -> (k <= length t)%nat ->
  exp (- (INR (k0 + k) / 64)) <= IZR (nth k (v :: t) DD) / IZR DD.
Proof.
  assert (HD : 0 < IZR DD) by (unfold DD; lra).
  assert (H64 : exp (- (1/64)) <= IZR rn / IZR rd).
  { rewrite exp_neg_inv. replace (IZR rn / IZR rd) with (/ (IZR rd / IZR rn)) by (unfold rn, rd; simpl; lra).
    apply Rinv_le_contravar; [unfold rn, rd; simpl; lra|]. pose proof (@exp_lower4 (1/64) ltac:(lra)). unfold rn, rd. simpl. lra. }
  induction t as [|v' t IH]; intros v k0 k H E L.
  - simpl in L. replace k with 0%nat by lia. rewrite Nat.add_0_r. exact E.
  - destruct k as [|k]; [rewrite Nat.add_0_r; exact E|]. cbn [tab_ok] in H. apply andb_prop in H. destruct H as [H1 H2].
    replace (k0 + S k)%nat with (S k0 + k)%nat by lia. cbn [nth]. apply IH; [exact H2| |simpl in L; lia].
    rewrite S_INR. replace (- ((INR k0 + 1) / 64)) with (- (INR k0 / 64) + - (1/64)) by field. rewrite exp_plus.
    pose proof (exp_pos (- (INR k0 / 64))). pose proof (exp_pos (- (1/64))).
    apply Rle_trans with (IZR v / IZR DD * (IZR rn / IZR rd)); [apply Rmult_le_compat; lra|].
    apply Z.leb_le in H1. apply IZR_le in H1. rewrite !mult_IZR in H1.
    assert (HR : 0 < IZR rd) by (unfold rd; simpl; lra).
    apply Rmult_le_reg_r with (IZR DD * IZR rd); [apply Rmult_lt_0_compat; assumption|].
    replace (IZR v / IZR DD * (IZR rn / IZR rd) * (IZR DD * IZR rd)) with (IZR v * IZR rn) by (field; lra).
    replace (IZR v' / IZR DD * (IZR DD * IZR rd)) with (IZR v' * IZR rd) by (field; lra). exact H1.
Qed.
Definition etab : list Z :=
[1082465282647; 1065683216562; 1049161332256; 1032895595984; 1016882036539; 1001116744283; 985595870191; 970315624911;
955272277839; 940462156210; 925881644199; 911527182039; 897395265153; 883482443296; 869785319716; 856300550321; 843024842865;
829954956144; 817087699203; 804419930560; 791948557435; 779670534999; 767582865628; 755682598171; 743966827232; 732432692457;
721077377839; 709898111029; 698892162660; 688056845678; 677389514689; 666887565312; 656548433544; 646369595131; 636348564956;
626482896430; 616770180893; 607208047030; 597794160289; 588526222311; 579401970371; 570419176824; 561575648561; 552869226474;
544297784929; 535859231247; 527551505194; 519372578475; 511320454242; 503393166604; 495588780151; 487905389476; 480341118713;
472894121081; 465562578427; 458344700789; 451238725954; 444242919031; 437355572024; 430575003419; 423899557770; 417327605297;
410857541487; 404487786703; 398216785799; 392043007737; 385964945217; 379981114308; 374090054084; 368290326269; 362580514885;
356959225908; 351425086925; 345976746801; 340612875348; 335332163001; 330133320498; 325015078565; 319976187606; 315015417398;
310131556791; 305323413413; 300589813377; 295929600996; 291341638500; 286824805759; 282378000008; 278000135579; 273690143636;
269446971915; 265269584463; 261156961391; 257108098620; 253122007638; 249197715259; 245334263385; 241530708771; 237786122796;
234099591237; 230470214043; 226897105118; 223379392104; 219916216167; 216506731788; 213150106556; 209845520967; 206592168221;
203389254026; 200235996405; 197131625505; 194075383407; 191066523944; 188104312516; 185188025912; 182316952134; 179490390222;
176707650084; 173968052326; 171270928088; 168615618879; 166001476417; 163427862472; 160894148706; 158399716525; 155943956925;
153526270342; 151146066510; 148802764312; 146495791642; 144224585262; 141988590668; 139787261951; 137620061668; 135486460705;
133385938154; 131317981182; 129282084906; 127277752271; 125304493929; 123361828117; 121449280542; 119566384264; 117712679583;
115887713925; 114091041732; 112322224355; 110580829946; 108866433350; 107178616006; 105516965840; 103881077168; 102270550596;
100684992920; 99124017033; 97587241831; 96074292116; 94584798509; 93118397356; 91674730642; 90253445902; 88854196136; 87476639724;
86120440341; 84785266878; 83470793357; 82176698856; 80902667428; 79648388023; 78413554415; 77197865124; 76001023346; 74822736877;
73662718044; 72520683633; 71396354821; 70289457109; 69199720253; 68126878198; 67070669015; 66030834835; 65007121787; 63999279937;
63007063224; 62030229403; 61068539984; 60121760175; 59189658824; 58272008363; 57368584752; 56479167423; 55603539230; 54741486392;
53892798442; 53057268177; 52234691606; 51424867901; 50627599347; 49842691294; 49069952111; 48309193136; 47560228634; 46822875749;
46096954459; 45382287533; 44678700489; 43986021550; 43304081601; 42632714149; 41971755283; 41321043633; 40680420330; 40049728969;
39428815570; 38817528540; 38215718635; 37623238927; 37039944764; 36465693737; 35900345646; 35343762463; 34795808301; 34256349380;
33725253993; 33202392475; 32687637172; 32180862409; 31681944460; 31190761515; 30707193655; 30231122818; 29762432774; 29301009095;
28846739126; 28399511959; 27959218405; 27525750969; 27099003822; 26678872775; 26265255255; 25858050280; 25457158432; 25062481835;
24673924130; 24291390453; 23914787410; 23544023055; 23179006868; 22819649731; 22465863909; 22117563027; 21774662049; 21437077257;
21104726232; 20777527831; 20455402170; 20138270604; 19826055706; 19518681251; 19216072194; 18918154655; 18624855899; 18336104318;
18051829414; 17771961784; 17496433098; 17225176088; 16958124528; 16695213218; 16436377969; 16181555588; 15930683861; 15683701539;
15440548323; 15201164847; 14965492667; 14733474245; 14505052935; 14280172969; 14058779443; 13840818305; 13626236340; 13414981160;
13207001187; 13002245645; 12800664542; 12602208664; 12406829559; 12214479526; 12025111603; 11838679557; 11655137872; 11474441736;
11296547034; 11121410333; 10948988875; 10779240563; 10612123954; 10447598248; 10285623276; 10126159493; 9969167966; 9814610367;
9662448961; 9512646599; 9365166707; 9219973278; 9077030864; 8936304567; 8797760028; 8661363423; 8527081451; 8394881328;
8264730777; 8136598023; 8010451783; 7886261259; 7763996130; 7643626546; 7525123119; 7408456917; 7293599457; 7180522696;
7069199028; 6959601273; 6851702674; 6745476887; 6640897978; 6537940414; 6436579059; 6336789166; 6238546372; 6141826691;
6046606509; 5952862579; 5860572014; 5769712281; 5680261198; 5592196925; 5505497962; 5420143141; 5336111624; 5253382895;
5171936756; 5091753322; 5012813016; 4935096566; 4858584998; 4783259632; 4709102077; 4636094228; 4564218261; 4493456627;
4423792050; 4355207522; 4287686299; 4221211895; 4155768081; 4091338879; 4027908559; 3965461635; 3903982861; 3843457227;
3783869956; 3725206499; 3667452535; 3610593963; 3554616901; 3499507683; 3445252854; 3391839168; 3339253584; 3287483264;
3236515569; 3186338054; 3136938469; 3088304754; 3040425035; 2993287622; 2946881007; 2901193859; 2856215025; 2811933523;
2768338542; 2725419438; 2683165733; 2641567111; 2600613416; 2560294649; 2520600966; 2481522677; 2443050240; 2405174263;
2367885499; 2331174843; 2295033333; 2259452145; 2224422592; 2189936122; 2155984315; 2122558882; 2089651662; 2057254621;
2025359850; 1993959561; 1963046089; 1932611886; 1902649521; 1873151679; 1844111159; 1815520870; 1787373833; 1759663175;
1732382131; 1705524040; 1679082345; 1653050591; 1627422422; 1602191580; 1577351906; 1552897336; 1528821899; 1505119717;
1481785003; 1458812060; 1436195279; 1413929139; 1392008203; 1370427120; 1349180621; 1328263518; 1307670705; 1287397154;
1267437915; 1247788115; 1228442957; 1209397718; 1190647748; 1172188469; 1154015375; 1136124028; 1118510061; 1101169173;
1084097131; 1067289766; 1050742975; 1034452718; 1018415018; 1002625960; 987081688; 971778408; 956712383; 941879935; 927277443;
912901341; 898748120; 884814325; 871096553; 857591455; 844295734; 831206144; 818319490; 805632625; 793142451; 780845919;
768740027; 756821820; 745088388; 733536866; 722164433; 710968313; 699945773; 689094122; 678410710; 667892929; 657538211;
647344028; 637307891; 627427350; 617699993; 608123444; 598695366; 589413457; 580275450; 571279115; 562422255; 553702708;
545118345; 536667070; 528346820; 520155564; 512091301; 504152063; 496335911; 488640938; 481065264; 473607040; 466264445;
459035686; 451918999; 444912646; 438014916; 431224126; 424538617; 417956757; 411476940; 405097583; 398817129; 392634044;
386546819; 380553967; 374654026; 368845555; 363127136; 357497373; 351954891; 346498338; 341126381; 335837708; 330631028;
325505070; 320458583; 315490334; 310599111; 305783719; 301042983; 296375745; 291780866; 287257224; 282803715; 278419251;
274102762; 269853194; 265669509; 261550686; 257495720; 253503620; 249573412; 245704136; 241894848; 238144617; 234452528;
230817680; 227239185; 223716169; 220247772; 216833148; 213471463; 210161896; 206903639; 203695896; 200537885; 197428834;
194367985; 191354590; 188387913; 185467230; 182591828; 179761005; 176974070; 174230342; 171529152; 168869840; 166251757;
163674263; 161136730; 158638537; 156179075; 153757744; 151373952; 149027117; 146716667; 144442037; 142202672; 139998025;
137827558; 135690741; 133587052; 131515978; 129477013; 127469659; 125493426; 123547832; 121632401; 119746666; 117890167;
116062450; 114263069; 112491585; 110747565; 109030584; 107340222; 105676067; 104037712; 102424758; 100836810; 99273481; 97734389;
96219158; 94727419; 93258807; 91812964; 90389537; 88988178; 87608545; 86250301; 84913115; 83596660; 82300615; 81024663; 79768493;
78531798; 77314276; 76115630; 74935567; 73773799; 72630043; 71504019; 70395453; 69304073; 68229614; 67171813; 66130411; 65105155;
64095794; 63102081; 62123775; 61160636; 60212429; 59278922; 58359888; 57455102; 56564344; 55687396; 54824044; 53974077; 53137287;
52313470; 51502425; 50703955; 49917864]%Z.
Definition Eup (k : nat) : Z := nth k (DD :: etab) DD.
Lemma etab_ok : tab_ok DD etab = true.
Proof. lazy. reflexivity. Qed.
Lemma Eup_ok : forall k, exp (- (INR k / 64)) <= IZR (Eup k) / IZR DD.
Proof.
  intros k. unfold Eup. assert (HD : 0 < IZR DD) by (unfold DD; lra). destruct (Nat.le_gt_cases k (length etab)) as [L|L].
  - apply (@tab_ok_sound etab DD 0%nat k etab_ok); [|exact L]. simpl. replace (- (0 / 64)) with 0 by field. rewrite exp_0. unfold DD. lra.
  - rewrite nth_overflow by (change (length (DD :: etab)) with (S (length etab)); lia). replace (IZR DD / IZR DD) with 1 by (field; lra). rewrite <- exp_0.
    apply exp_le. pose proof (pos_INR k). lra.
Qed.

(** convexity: on [l, u] the maximum of a exp(-q) + lam q is at an end *)
Lemma convex_max : forall a lam l u q, 0 <= a -> l <= q <= u ->
  a * exp (- q) + lam * q <= Rmax (a * exp (- l) + lam * l) (a * exp (- u) + lam * u).
Proof.
  intros a lam l u q Ha [H1 H2]. destruct (Req_dec l u) as [E|E].
  - replace q with l by lra. apply Rmax_l.
  - pose (t := (q - l) / (u - l)). assert (Ht : 0 <= t <= 1).
    { unfold t. split.
      - apply Rmult_le_reg_r with (u - l); [lra|]. replace ((q - l) / (u - l) * (u - l)) with (q - l) by (field; lra). lra.
      - apply Rmult_le_reg_r with (u - l); [lra|]. replace ((q - l) / (u - l) * (u - l)) with (q - l) by (field; lra). lra. }
    assert (Q : q = (1 - t) * l + t * u) by (unfold t; field; lra).
    assert (T : forall y, exp (- q) * (1 + (q - y)) <= exp (- y)).
    { intros y. replace (- y) with (- q + (q - y)) by ring. rewrite exp_plus. apply Rmult_le_compat_l; [left; apply exp_pos|].
      destruct (Req_dec (q - y) 0) as [Z|Z]; [rewrite Z, exp_0; lra|]. left. apply exp_ineq1. exact Z. }
    pose proof (T l) as Tl. pose proof (T u) as Tu.
    assert (X : exp (- q) <= (1 - t) * exp (- l) + t * exp (- u)).
    { replace (exp (- q)) with ((1 - t) * (exp (- q) * (1 + (q - l))) + t * (exp (- q) * (1 + (q - u)))).
      - assert ((1 - t) * (exp (- q) * (1 + (q - l))) <= (1 - t) * exp (- l)) by (apply Rmult_le_compat_l; lra).
        assert (t * (exp (- q) * (1 + (q - u))) <= t * exp (- u)) by (apply Rmult_le_compat_l; lra). lra.
      - rewrite Q at 2 4. ring. }
    set (gl := a * exp (- l) + lam * l). set (gu := a * exp (- u) + lam * u).
    assert (Y : a * exp (- q) + lam * q <= (1 - t) * gl + t * gu).
    { rewrite Q at 2. unfold gl, gu. assert (a * exp (- q) <= a * ((1 - t) * exp (- l) + t * exp (- u))) by (apply Rmult_le_compat_l; lra). lra. }
    pose proof (Rmax_l gl gu). pose proof (Rmax_r gl gu). nra.
Qed.

(** ** The checker *)
Inductive cert := Leaf (a b c d : Z) | Split (i v : nat) (l r : cert).

Section Check.
Variable n : nat.
Variable alpha : list Z.           (* 10 alpha *)
Variables A P : list (list Z).     (* 100 A, 10000 P *)
Variable M : Z.                    (* 100000 M *)
Definition az i := nth i alpha 0%Z.
Definition Az i j := nth j (nth i A []) 0%Z.
Definition Pz i j := nth j (nth i P []) 0%Z.
Definition Q (x : pt) (i : nat) : R := rsum n (fun j => IZR (Az i j) / 100 * (x.[j] - IZR (Pz i j) / 10000) ^ 2).

Fixpoint zsum (k : nat) (f : nat -> Z) : Z := match k with O => 0%Z | S k' => (zsum k' f + f k')%Z end.

Definition term (lam : Z) (i k : nat) : Z := (az i * Eup k * 64000 + lam * Z.of_nat k * 10 * DD)%Z.
Definition side (lam : nat -> Z) (lo : nat -> nat) (hi : nat -> option nat) (i : nat) : Z :=
  match hi i with Some u => Z.max (term (lam i) i (lo i)) (term (lam i) i u) | None => term (lam i) i (lo i) end.
Definition vmin (lam : nat -> Z) (j : nat) : Z :=
  let w i := (lam i * Az i j)%Z in
  let W := zsum 4 w in
  let B := zsum 4 (fun i => (w i * Pz i j)%Z) in
  let C := zsum 4 (fun i => (w i * Pz i j * Pz i j)%Z) in
  ((C * W - B * B) / W)%Z.

Definition leaf_ok (lam : nat -> Z) (lo : nat -> nat) (hi : nat -> option nat) : bool :=
  (forallb (fun i => (0 <=? lam i)%Z && match hi i with None => (lam i =? 0)%Z | Some _ => true end) (seq 0 4)) &&
  (zsum 4 (side lam lo hi) * 10000000000000 - zsum n (vmin lam) * 640000 * DD <=? M * 100000000 * 640000 * DD)%Z.

Definition upd {B} (f : nat -> B) (i : nat) (v : B) : nat -> B := fun k => if (k =? i)%nat then v else f k.
Fixpoint check (c : cert) (lo : nat -> nat) (hi : nat -> option nat) : bool :=
  match c with
  | Leaf a b c d => leaf_ok (fun i => nth i [a; b; c; d] 0%Z) lo hi
  | Split i v l r => check l lo (upd hi i (Some v)) && check r (upd lo i v) hi
  end.

Hypothesis A_nonneg : forall i j, (0 <= Az i j)%Z.
Hypothesis a_nonneg : forall i, (0 <= az i)%Z.

Definition inside (x : pt) (lo : nat -> nat) (hi : nat -> option nat) : Prop :=
  forall i, (i < 4)%nat -> INR (lo i) / 64 <= Q x i /\ match hi i with Some u => Q x i <= INR u / 64 | None => True end.

Lemma zsum_ge : forall k f, (forall i, (i < k)%nat -> 0 <= f i)%Z -> (0 <= zsum k f)%Z.
Proof. clear. induction k as [|k IH]; intros f H; simpl; [lia|]. pose proof (IH f (fun i Hi => H i (Nat.lt_lt_succ_r _ _ Hi))). pose proof (H k (Nat.lt_succ_diag_r k)). lia. Qed.
Lemma IZR_zsum : forall k f, IZR (zsum k f) = rsum k (fun i => IZR (f i)).
Proof. clear. induction k as [|k IH]; intros f; simpl; [reflexivity|]. rewrite plus_IZR, IH. reflexivity. Qed.

(** four weighted squares are at least their minimum *)
Lemma sq4 : forall (w p : nat -> R) y, (forall i, 0 <= w i) ->
  let W := rsum 4 w in let B := rsum 4 (fun i => w i * p i) in let C := rsum 4 (fun i => w i * p i * p i) in
  W <> 0 -> (C * W - B * B) / W <= rsum 4 (fun i => w i * (y - p i) ^ 2).
Proof.
  clear. intros w p y Hw W B C HW. assert (P0 : 0 < W).
  { assert (0 <= W) by (apply rsum_nonneg; auto). lra. }
  assert (E : rsum 4 (fun i => w i * (y - p i) ^ 2) = W * y ^ 2 - 2 * B * y + C) by (unfold W, B, C; simpl; ring).
  rewrite E. apply Rmult_le_reg_r with W; [exact P0|].
  replace ((C * W - B * B) / W * W) with (C * W - B * B) by (field; lra). pose proof (pow2_ge_0 (W * y - B)). nra.
Qed.

Lemma vmin_ok : forall lam (x : R) j, (forall i, (0 <= lam i)%Z) ->
  IZR (vmin lam j) / 10000000000000 <= rsum 4 (fun i => IZR (lam i) / 1000 * (IZR (Az i j) / 100 * (x - IZR (Pz i j) / 10000) ^ 2)).
Proof.
  intros lam x j Hl.
  set (w := fun i => (lam i * Az i j)%Z). set (W := zsum 4 w). set (B := zsum 4 (fun i => (w i * Pz i j)%Z)). set (C := zsum 4 (fun i => (w i * Pz i j * Pz i j)%Z)).
  change (vmin lam j) with ((C * W - B * B) / W)%Z.
  assert (w0 : forall i, (0 <= w i)%Z) by (intros i; unfold w; apply Z.mul_nonneg_nonneg; [apply Hl|apply A_nonneg]).
  assert (W0 : (0 <= W)%Z) by (apply zsum_ge; auto).
  assert (RHS : rsum 4 (fun i => IZR (lam i) / 1000 * (IZR (Az i j) / 100 * (x - IZR (Pz i j) / 10000) ^ 2)) =
    rsum 4 (fun i => IZR (w i) * (x * 10000 - IZR (Pz i j)) ^ 2) / 10000000000000).
  { unfold w. simpl rsum. rewrite !mult_IZR. field. }
  rewrite RHS. apply Rmult_le_compat_r; [lra|].
  destruct (Z.eq_dec W 0) as [E|E].
  - assert (V : ((C * W - B * B) / W = 0)%Z) by (rewrite E; apply Zdiv_0_r). rewrite V.
    apply rsum_nonneg. intros i _. apply Rmult_le_pos; [apply IZR_le; apply w0|apply pow2_ge_0].
  - pose proof (@sq4 (fun i => IZR (w i)) (fun i => IZR (Pz i j)) (x * 10000)) as S. cbv zeta in S.
    assert (HW : rsum 4 (fun i => IZR (w i)) = IZR W) by (unfold W; rewrite IZR_zsum; reflexivity).
    assert (HB : rsum 4 (fun i => IZR (w i) * IZR (Pz i j)) = IZR B) by (unfold B; rewrite IZR_zsum; apply rsum_ext; intros; rewrite mult_IZR; reflexivity).
    assert (HC : rsum 4 (fun i => IZR (w i) * IZR (Pz i j) * IZR (Pz i j)) = IZR C) by (unfold C; rewrite IZR_zsum; apply rsum_ext; intros; rewrite !mult_IZR; reflexivity).
    rewrite HW, HB, HC in S.
    apply Rle_trans with ((IZR C * IZR W - IZR B * IZR B) / IZR W).
    + pose proof (@IZR_div_le (C * W - B * B) W ltac:(lia)) as G. rewrite minus_IZR, !mult_IZR in G. exact G.
    + apply S; [intros i; apply IZR_le; apply w0|]. apply not_0_IZR. exact E.
Qed.

Lemma term_ok : forall lam i k, IZR (az i) / 10 * exp (- (INR k / 64)) + IZR lam / 1000 * (INR k / 64) <= IZR (term lam i k) / (640000 * IZR DD).
Proof.
  intros lam i k. pose proof (Eup_ok k) as E. unfold term. rewrite plus_IZR, !mult_IZR.
  assert (D0 : 0 < IZR DD) by (unfold DD; lra). rewrite <- INR_IZR_INZ.
  replace ((IZR (az i) * IZR (Eup k) * 64000 + IZR lam * INR k * 10 * IZR DD) / (640000 * IZR DD))
    with (IZR (az i) / 10 * (IZR (Eup k) / IZR DD) + IZR lam / 1000 * (INR k / 64)) by (field; lra).
  apply Rplus_le_compat_r. apply Rmult_le_compat_l; [|exact E]. pose proof (IZR_le _ _ (a_nonneg i)). lra.
Qed.

Lemma side_ok : forall lam lo hi x i, (i < 4)%nat -> inside x lo hi -> (hi i = None -> lam i = 0%Z) ->
  IZR (az i) / 10 * exp (- Q x i) + IZR (lam i) / 1000 * Q x i <= IZR (side lam lo hi i) / (640000 * IZR DD).
Proof.
  intros lam lo hi x i Hi HI HN. destruct (HI i Hi) as [H1 H2]. unfold side.
  assert (D0 : 0 < IZR DD) by (unfold DD; lra).
  assert (a0 : 0 <= IZR (az i) / 10) by (pose proof (IZR_le _ _ (a_nonneg i)); lra).
  destruct (hi i) as [u|].
  - pose proof (@convex_max (IZR (az i) / 10) (IZR (lam i) / 1000) (INR (lo i) / 64) (INR u / 64) (Q x i) a0 (conj H1 H2)) as C.
    apply Rle_trans with (1 := C).
    assert (I : 0 < 640000 * IZR DD) by lra.
    apply Rmax_lub.
    + apply Rle_trans with (1 := term_ok (lam i) i (lo i)). apply Rmult_le_compat_r; [left; apply Rinv_0_lt_compat; exact I|]. apply IZR_le, Z.le_max_l.
    + apply Rle_trans with (1 := term_ok (lam i) i u). apply Rmult_le_compat_r; [left; apply Rinv_0_lt_compat; exact I|]. apply IZR_le, Z.le_max_r.
  - rewrite (HN eq_refl). pose proof (term_ok 0 i (lo i)) as T. replace (0 / 1000 * (INR (lo i) / 64)) with 0 in T by field.
    assert (E : exp (- Q x i) <= exp (- (INR (lo i) / 64))) by (apply exp_le; lra).
    assert (IZR (az i) / 10 * exp (- Q x i) <= IZR (az i) / 10 * exp (- (INR (lo i) / 64))) by (apply Rmult_le_compat_l; assumption). lra.
Qed.

Lemma leaf_sound : forall lam lo hi x, leaf_ok lam lo hi = true -> (forall i, (4 <= i)%nat -> lam i = 0%Z) -> inside x lo hi ->
  rsum 4 (fun i => IZR (az i) / 10 * exp (- Q x i)) <= IZR M / 100000.
Proof.
  intros lam lo hi x H H4 HI. unfold leaf_ok in H. apply andb_prop in H. destruct H as [H1 H2].
  rewrite forallb_forall in H1. apply Z.leb_le in H2.
  assert (L0 : forall i, (0 <= lam i)%Z).
  { intros i. destruct (Nat.lt_ge_cases i 4) as [L|L]; [|rewrite H4 by exact L; lia].
    assert (K := H1 i (proj2 (in_seq 4 0 i) ltac:(lia))). apply andb_prop in K. destruct K as [K _]. apply Z.leb_le in K. exact K. }
  assert (LN : forall i, (i < 4)%nat -> hi i = None -> lam i = 0%Z).
  { intros i L E. assert (K := H1 i (proj2 (in_seq 4 0 i) ltac:(lia))). apply andb_prop in K. destruct K as [_ K]. rewrite E in K. apply Z.eqb_eq in K. exact K. }
  assert (S1 : rsum 4 (fun i => IZR (az i) / 10 * exp (- Q x i) + IZR (lam i) / 1000 * Q x i) <= IZR (zsum 4 (side lam lo hi)) / (640000 * IZR DD)).
  { rewrite IZR_zsum.
    change (rsum 4 (fun i => IZR (side lam lo hi i)) / (640000 * IZR DD)) with (rsum 4 (fun i => IZR (side lam lo hi i)) * / (640000 * IZR DD)). rewrite <- rsum_scal_r. apply rsum_le. intros i Hi. apply side_ok; [exact Hi|exact HI|apply LN; exact Hi]. }
  assert (S2 : IZR (zsum n (vmin lam)) / 10000000000000 <= rsum 4 (fun i => IZR (lam i) / 1000 * Q x i)).
  { unfold Q. rewrite (@rsum_ext 4 _ (fun i => rsum n (fun j => IZR (lam i) / 1000 * (IZR (Az i j) / 100 * (x.[j] - IZR (Pz i j) / 10000) ^ 2)))) by (intros i _; symmetry; apply rsum_scal).
    rewrite rsum_swap, IZR_zsum.
    change (rsum n (fun i => IZR (vmin lam i)) / 10000000000000) with (rsum n (fun i => IZR (vmin lam i)) * / 10000000000000). rewrite <- rsum_scal_r. apply rsum_le. intros j _. apply vmin_ok. exact L0. }
  rewrite rsum_plus in S1. apply IZR_le in H2. rewrite minus_IZR, !mult_IZR in H2.
  assert (D0 : 0 < IZR DD) by (unfold DD; lra).
  set (s := IZR (zsum 4 (side lam lo hi))) in *. set (v := IZR (zsum n (vmin lam))) in *. set (m := IZR M) in *.
  assert (F : s / (640000 * IZR DD) - v / 10000000000000 <= m / 100000).
  { apply Rmult_le_reg_r with (640000 * IZR DD * 10000000000000); [apply Rmult_lt_0_compat; lra|].
    replace ((s / (640000 * IZR DD) - v / 10000000000000) * (640000 * IZR DD * 10000000000000)) with (s * 10000000000000 - v * 640000 * IZR DD) by (field; lra).
    replace (m / 100000 * (640000 * IZR DD * 10000000000000)) with (m * 100000000 * 640000 * IZR DD) by field. exact H2. }
  lra.
Qed.

Lemma check_sound : forall c lo hi x, check c lo hi = true -> inside x lo hi ->
  rsum 4 (fun i => IZR (az i) / 10 * exp (- Q x i)) <= IZR M / 100000.
Proof.
  induction c as [a b c d|i v l IHl r IHr]; intros lo hi x H HI; cbn [check] in H.
  - apply (@leaf_sound (fun i => nth i [a; b; c; d] 0%Z) lo hi x H); [|exact HI].
    intros k Hk. do 4 (destruct k as [|k]; [lia|]). destruct k; reflexivity.
  - apply andb_prop in H. destruct H as [Hl Hr]. destruct (Rle_lt_dec (Q x i) (INR v / 64)) as [C|C].
    + apply IHl with (1 := Hl). intros k Hk. destruct (HI k Hk) as [A1 A2]. split; [exact A1|]. unfold upd.
      destruct (Nat.eqb_spec k i) as [->|N]; [exact C|exact A2].
    + apply IHr with (1 := Hr). intros k Hk. destruct (HI k Hk) as [A1 A2]. split; [|exact A2]. unfold upd.
      destruct (Nat.eqb_spec k i) as [->|N]; [lra|exact A1].
Qed.

Theorem check_bound : forall c x, check c (fun _ => 0%nat) (fun _ => None) = true ->
  rsum 4 (fun i => IZR (az i) / 10 * exp (- Q x i)) <= IZR M / 100000.
Proof.
  intros c x H. apply check_sound with (1 := H). intros i Hi. split; [|exact I]. simpl. replace (0 / 64) with 0 by field.
  apply rsum_nonneg. intros j _. apply Rmult_le_pos; [pose proof (IZR_le _ _ (A_nonneg i j)); lra|apply pow2_ge_0].
Qed.
End Check.

(** ** Lower bounds for exp at a point: (1 - q/2^m)^(2^m), rounded down *)
Fixpoint sqr_down (m : nat) (y : Z) : Z := match m with O => y | S k => sqr_down k (y * y / DD)%Z end.
Lemma sqr_down_ok : forall m y q, (0 <= y)%Z -> IZR y / IZR DD <= exp (- (q / 2 ^ m)) -> IZR (sqr_down m y) / IZR DD <= exp (- q).
Proof.
  assert (D0 : 0 < IZR DD) by (unfold DD; lra).
  induction m as [|m IH]; intros y q Hy H; cbn [sqr_down].
  - simpl in H. replace (q / 1) with q in H by field. exact H.
  - apply IH.
    + apply Z.div_pos; [apply Z.mul_nonneg_nonneg; exact Hy|reflexivity].
    + pose proof (@IZR_div_le (y * y) DD ltac:(reflexivity)) as G. rewrite mult_IZR in G.
      replace (- (q / 2 ^ m)) with (- (q / 2 ^ S m) + - (q / 2 ^ S m)).
      2: { simpl. field. apply pow_nonzero. lra. }
      rewrite exp_plus. set (e := exp (- (q / 2 ^ S m))) in *.
      assert (Y : 0 <= IZR y / IZR DD) by (apply Rmult_le_pos; [apply IZR_le; exact Hy|left; apply Rinv_0_lt_compat; exact D0]).
      apply Rle_trans with ((IZR y / IZR DD) * (IZR y / IZR DD)).
      * apply Rmult_le_reg_r with (IZR DD); [exact D0|]. replace (IZR y / IZR DD * (IZR y / IZR DD) * IZR DD) with (IZR y * IZR y / IZR DD) by (field; lra).
        replace (IZR (y * y / DD) / IZR DD * IZR DD) with (IZR (y * y / DD)) by (field; lra). exact G.
      * apply Rmult_le_compat; assumption.
Qed.
(** exp (- (qn / qd)) from below with 14 squarings *)
Definition exp_down (qn qd : Z) : Z := sqr_down 14 (DD - (DD * qn / (qd * 16384) + 1)).
Lemma exp_down_ok : forall qn qd, (0 < qd)%Z -> (0 <= DD - (DD * qn / (qd * 16384) + 1))%Z ->
  IZR (exp_down qn qd) / IZR DD <= exp (- (IZR qn / IZR qd)).
Proof.
  intros qn qd Hd H0. unfold exp_down. apply sqr_down_ok; [exact H0|].
  assert (D0 : 0 < IZR DD) by (unfold DD; lra). assert (d0 : 0 < IZR qd) by (apply IZR_lt; exact Hd).
  pose proof (@IZR_div_ge (DD * qn) (qd * 16384) ltac:(lia)) as G. rewrite !mult_IZR in G.
  rewrite minus_IZR. set (z := IZR (DD * qn / (qd * 16384) + 1)) in *.
  set (h := IZR qn / IZR qd / 2 ^ 14).
  assert (Hz : h <= z / IZR DD).
  { apply Rmult_le_reg_r with (IZR DD); [exact D0|]. replace (z / IZR DD * IZR DD) with z by (field; lra).
    replace (h * IZR DD) with (IZR DD * IZR qn / (IZR qd * 16384)); [exact G|]. unfold h. simpl. field. lra. }
  apply Rle_trans with (1 + - h).
  - replace ((IZR DD - z) / IZR DD) with (1 - z / IZR DD) by (field; lra). lra.
  - destruct (Req_dec (- h) 0) as [E|E]; [rewrite E, exp_0; lra|]. left. apply exp_ineq1. exact E.
Qed.

Definition cert3 : cert :=
Split 3 128 (Split 2 128 (Split 3 64 (Split 2 64 (Leaf 0 0 3793 4046) (Split 1 128 (Split 0 128 (Leaf 432 519 698 2023) (Leaf 0
519 1395 2023)) (Split 0 128 (Leaf 432 0 698 2023) (Leaf 0 0 698 2023)))) (Split 2 64 (Split 1 128 (Split 0 128 (Leaf 432 519 1896
744) (Leaf 0 519 1896 744)) (Leaf 0 0 1896 744)) (Split 1 128 (Split 0 128 (Leaf 432 519 698 744) (Leaf 0 519 698 744)) (Leaf 0 0
698 744)))) (Split 3 64 (Split 1 128 (Split 0 128 (Leaf 432 519 0 2023) (Split 1 64 (Split 3 32 (Split 2 256 (Split 1 32 (Split 2
192 (Split 3 16 (Split 0 256 (Leaf 59 944 257 2831) (Leaf 0 944 257 2831)) (Leaf 0 944 257 1103)) (Split 3 16 (Split 0 256 (Leaf
59 944 94 2831) (Split 1 16 (Leaf 0 1062 94 2831) (Split 3 8 (Split 2 224 (Split 0 384 (Leaf 8 827 118 3008) (Split 1 24 (Leaf 0
879 118 3008) (Split 3 4 (Leaf 0 775 118 3102) (Leaf 0 775 118 2914)))) (Split 0 384 (Leaf 8 827 71 3008) (Split 1 24 (Leaf 0 879
71 3008) (Split 3 4 (Split 2 240 (Split 3 2 (Leaf 0 775 80 3151) (Split 1 28 (Leaf 0 800 80 3054) (Split 0 512 (Leaf 1 751 80
3054) (Leaf 0 751 80 3054)))) (Leaf 0 775 31 3102)) (Leaf 0 775 71 2914))))) (Leaf 0 827 94 1327)))) (Leaf 0 944 94 1103))) (Split
2 192 (Split 3 16 (Split 0 256 (Leaf 59 573 257 2831) (Leaf 0 573 257 2831)) (Leaf 0 573 257 2205)) (Split 3 16 (Split 0 256 (Leaf
59 573 94 2831) (Split 3 8 (Split 1 48 (Split 2 224 (Split 0 384 (Leaf 8 644 118 3008) (Split 3 4 (Leaf 0 644 235 3102) (Leaf 0
644 118 2914))) (Split 0 384 (Leaf 8 644 71 3008) (Split 3 4 (Split 1 40 (Split 2 240 (Split 3 2 (Split 1 36 (Split 0 512 (Leaf 1
706 80 3151) (Leaf 0 706 80 3151)) (Split 0 512 (Leaf 1 663 80 3151) (Leaf 0 663 80 3151))) (Split 1 36 (Split 0 512 (Leaf 1 706
80 3054) (Split 2 232 (Leaf 0 706 85 3054) (Split 3 3 (Leaf 0 706 75 3077) (Leaf 0 706 75 3030)))) (Split 0 512 (Leaf 1 663 80
3054) (Leaf 0 663 80 3054)))) (Split 3 2 (Split 1 36 (Split 0 512 (Leaf 1 706 62 3151) (Leaf 0 706 62 3151)) (Split 0 512 (Leaf 1
663 62 3151) (Leaf 0 663 62 3151))) (Split 1 36 (Split 0 512 (Leaf 1 706 62 3054) (Leaf 0 706 62 3054)) (Leaf 0 663 31 3054))))
(Leaf 0 302 71 3102)) (Leaf 0 644 71 1457)))) (Leaf 0 251 94 3008)) (Leaf 0 573 94 1327))) (Leaf 0 573 94 1103)))) (Split 1 32
(Split 3 16 (Split 0 256 (Leaf 59 944 0 2831) (Split 1 16 (Leaf 0 1062 0 2831) (Split 2 384 (Split 3 8 (Leaf 0 912 0 3008) (Leaf 0
827 24 2655)) (Leaf 0 827 0 2831)))) (Leaf 0 944 0 1103)) (Split 3 16 (Split 0 256 (Leaf 59 573 0 2831) (Split 2 384 (Split 3 8
(Split 1 48 (Split 2 320 (Split 0 384 (Leaf 8 644 35 3008) (Leaf 0 644 17 3008)) (Leaf 0 644 13 3008)) (Leaf 0 502 24 3008)) (Leaf
0 573 24 2655)) (Leaf 0 573 0 2831))) (Leaf 0 573 0 2205)))) (Leaf 0 759 0 764)) (Split 3 32 (Split 2 256 (Leaf 0 43 176 2518)
(Leaf 0 140 0 2518)) (Leaf 0 279 0 1527)))) (Split 0 128 (Leaf 432 0 0 2023) (Split 3 32 (Split 2 256 (Leaf 0 0 176 2518) (Leaf 0
0 0 2518)) (Leaf 0 0 0 1527)))) (Leaf 0 0 0 54))) (Split 2 128 (Split 2 64 (Split 1 128 (Split 0 128 (Leaf 432 519 1896 0) (Leaf 0
519 1896 0)) (Split 0 128 (Leaf 432 0 1896 0) (Leaf 0 0 1896 0))) (Leaf 0 0 112 0)) (Leaf 0 0 0 0)).

Definition cert6 : cert :=
Split 3 128 (Split 2 128 (Leaf 0 0 1621 1383) (Split 3 64 (Split 1 128 (Leaf 0 519 0 2023) (Split 0 128 (Leaf 432 0 0 2023) (Split
3 32 (Split 2 256 (Leaf 0 0 176 2518) (Split 1 256 (Leaf 0 70 0 2518) (Split 3 16 (Split 0 256 (Leaf 59 0 0 2831) (Leaf 0 0 0
2831)) (Leaf 0 0 0 2205)))) (Leaf 0 0 0 764)))) (Split 1 128 (Leaf 0 519 0 744) (Leaf 0 0 0 372)))) (Split 2 128 (Split 2 64
(Split 1 128 (Split 0 128 (Split 1 64 (Leaf 432 759 1896 0) (Split 2 32 (Split 3 256 (Leaf 432 279 2361 187) (Leaf 432 279 2361
0)) (Leaf 432 279 1432 0))) (Leaf 0 519 1896 0)) (Split 0 128 (Split 2 32 (Split 3 256 (Leaf 432 0 2361 187) (Split 0 64 (Split 1
256 (Split 0 32 (Leaf 787 70 2361 0) (Split 2 16 (Split 1 192 (Leaf 477 103 2654 0) (Split 3 384 (Leaf 477 38 2654 25) (Split 2 8
(Leaf 477 76 2820 0) (Leaf 477 38 2489 0)))) (Leaf 477 70 2067 0))) (Split 0 32 (Leaf 1574 0 2361 0) (Split 2 16 (Split 3 384
(Leaf 477 0 2654 25) (Split 2 8 (Split 0 48 (Leaf 859 0 2820 0) (Split 1 384 (Split 2 4 (Split 1 320 (Split 3 512 (Leaf 418 14
2908 3) (Split 0 56 (Split 1 288 (Split 2 2 (Leaf 444 17 2954 0) (Leaf 444 17 2863 0)) (Split 2 2 (Split 0 52 (Leaf 458 10 2954 0)
(Split 3 640 (Split 2 1 (Leaf 430 10 2977 0) (Split 1 304 (Leaf 430 12 2931 0) (Leaf 430 9 2931 0))) (Leaf 430 10 2954 0))) (Split
0 52 (Leaf 458 10 2863 0) (Split 3 640 (Split 2 3 (Split 1 304 (Leaf 430 12 2885 0) (Leaf 430 9 2885 0)) (Leaf 430 10 2840 0))
(Leaf 430 10 2863 0))))) (Split 1 288 (Leaf 392 35 2908 0) (Split 2 2 (Split 0 60 (Split 3 640 (Split 2 1 (Leaf 404 10 2977 0)
(Split 1 304 (Split 3 576 (Leaf 404 12 2931 1) (Leaf 404 12 2931 0)) (Split 3 576 (Leaf 404 9 2931 1) (Leaf 404 9 2931 0)))) (Leaf
404 10 2954 0)) (Leaf 380 10 2954 0)) (Split 0 60 (Split 3 640 (Split 2 3 (Split 1 304 (Split 3 576 (Leaf 404 12 2885 1) (Leaf 404
12 2885 0)) (Split 3 576 (Leaf 404 9 2885 1) (Leaf 404 9 2885 0))) (Split 1 304 (Leaf 404 12 2840 0) (Leaf 404 9 2840 0))) (Leaf
404 10 2863 0)) (Leaf 380 10 2863 0)))))) (Split 3 512 (Leaf 418 5 2908 3) (Split 0 56 (Split 2 2 (Leaf 444 5 2954 0) (Leaf 444 5
2863 0)) (Split 2 2 (Leaf 392 3 2954 0) (Split 0 60 (Leaf 404 5 2863 0) (Leaf 380 5 2863 0)))))) (Leaf 418 10 1366 0)) (Split 2 4
(Split 3 512 (Leaf 418 0 2908 3) (Leaf 418 0 2908 0)) (Leaf 418 0 2732 0)))) (Leaf 477 0 1244 0))) (Leaf 477 0 2067 0)))) (Split 1
256 (Split 2 16 (Leaf 93 112 2654 0) (Leaf 233 70 2067 0)) (Split 2 16 (Split 3 384 (Leaf 233 0 2654 25) (Split 0 96 (Split 2 8
(Split 1 384 (Split 0 80 (Split 2 4 (Split 1 320 (Split 3 512 (Leaf 325 14 2908 3) (Leaf 325 14 2908 0)) (Split 3 512 (Leaf 325 5
2908 3) (Leaf 325 5 2908 0))) (Leaf 163 10 1366 0)) (Leaf 253 10 2820 0)) (Leaf 289 0 2820 0)) (Leaf 289 0 2489 0)) (Leaf 176 0
2654 0))) (Leaf 233 0 2067 0))))) (Leaf 372 0 358 0)) (Split 2 32 (Split 3 256 (Leaf 0 0 2361 187) (Split 1 256 (Leaf 0 70 2361 0)
(Leaf 0 0 2361 0))) (Leaf 0 0 1432 0)))) (Split 1 128 (Split 0 128 (Leaf 432 519 698 0) (Leaf 0 519 698 0)) (Leaf 0 0 349 0)))
(Leaf 0 0 0 0)).

Definition al3 : list Z := [10; 12; 30; 32]%Z.
Definition A3 : list (list Z) := [[300; 1000; 3000]; [10; 1000; 3500]; [300; 1000; 3000]; [10; 1000; 3500]]%Z.
Definition P3 : list (list Z) := [[3689; 1170; 2673]; [4699; 4387; 7470]; [1091; 8732; 5547]; [381; 5743; 8828]]%Z.
Definition A6 : list (list Z) := [[1000; 300; 1700; 350; 170; 800]; [5; 1000; 1700; 10; 800; 1400];
   [300; 350; 170; 1000; 1700; 800]; [1700; 800; 5; 1000; 10; 1400]]%Z.
Definition P6 : list (list Z) := [[1312; 1696; 5569; 124; 8283; 5886]; [2329; 4135; 8307; 3736; 1004; 9991];
   [2348; 1451; 3522; 2883; 3047; 6650]; [4047; 8828; 8732; 5743; 1091; 381]]%Z.

Lemma cert3_ok : check 3 al3 A3 P3 386378 cert3 (fun _ => 0%nat) (fun _ => None) = true.
Proof. lazy. reflexivity. Qed.
Lemma cert6_ok : check 6 al3 A6 P6 332337 cert6 (fun _ => 0%nat) (fun _ => None) = true.
Proof. lazy. reflexivity. Qed.
