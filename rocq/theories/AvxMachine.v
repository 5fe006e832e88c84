(** * AvxMachine: the AVX2 instructions used by ntt.S, invntt.S, pointwise.S and shuffle.S of
    pqclean/crypto_sign/dilithium2/avx2, and those four programs, macro by macro.

    A 256-bit register is a list of 8 lanes, lane 0 the least significant 32 bits, each read as
    an [int32_t].  The machine is parametrised by what a lane is: integers for the real machine,
    symbolic values in AvxSym.v.  Operands are written in the order of the source (AT&T: the
    destination last).  Memory is a list of 32-byte vectors, because every access of these
    programs is to a 32-byte aligned vector.  Not modelled: an alignment fault, flags. *)
From Coq Require Import ZArith List Lia Bool.
From Verif Require Import Base Bits DilArith.
Import ListNotations.
Open Scope Z_scope.

(** What the machine needs to know about a lane: constants, the low and high half of the signed
    product, 32-bit addition and subtraction, 64-bit addition and subtraction on lane pairs. *)
Record lane (V : Type) := {
  l_const : Z -> V;
  l_mul : V -> V -> V * V;
  l_add : V -> V -> V;
  l_sub : V -> V -> V;
  l_addq : V * V -> V * V -> V * V;
  l_subq : V * V -> V * V -> V * V }.
Arguments l_const {V} l. Arguments l_mul {V} l. Arguments l_add {V} l. Arguments l_sub {V} l.
Arguments l_addq {V} l. Arguments l_subq {V} l.

(** The real lanes: 32-bit integers, wrapping. *)
Definition q64 (p : Z * Z) : Z := fst p mod 4294967296 + snd p * 4294967296.
Definition split64 (x : Z) : Z * Z := (i32 x, i32 (Z.shiftr x 32)).
Definition zlane : lane Z := {|
  l_const := fun z => z;
  l_mul := fun x y => split64 (x * y);
  l_add := fun x y => i32 (x + y);
  l_sub := fun x y => i32 (x - y);
  l_addq := fun x y => split64 (q64 x + q64 y);
  l_subq := fun x y => split64 (q64 x - q64 y) |}.

(** consts.c 10-101: [qdata], 624 words; cdecl.h 4-9: the offsets of its parts. *)
Definition qdata : list (list Z) :=
[
  [8380417; 8380417; 8380417; 8380417; 8380417; 8380417; 8380417; 8380417];
  [58728449; 58728449; 58728449; 58728449; 58728449; 58728449; 58728449; 58728449];
  [(-8395782); (-8395782); (-8395782); (-8395782); (-8395782); (-8395782); (-8395782); (-8395782)];
  [41978; 41978; 41978; 41978; 41978; 41978; 41978; 41978];
  [(-151046689); 1830765815; (-1929875198); (-1927777021); 1640767044; 1477910808; 1612161320; 1640734244];
  [308362795; 308362795; 308362795; 308362795; (-1815525077); (-1815525077); (-1815525077); (-1815525077)];
  [(-1374673747); (-1374673747); (-1374673747); (-1374673747); (-1091570561); (-1091570561); (-1091570561); (-1091570561)];
  [(-1929495947); (-1929495947); (-1929495947); (-1929495947); 515185417; 515185417; 515185417; 515185417];
  [(-285697463); (-285697463); (-285697463); (-285697463); 625853735; 625853735; 625853735; 625853735];
  [1727305304; 1727305304; 2082316400; 2082316400; (-1364982364); (-1364982364); 858240904; 858240904];
  [1806278032; 1806278032; 222489248; 222489248; (-346752664); (-346752664); 684667771; 684667771];
  [1654287830; 1654287830; (-878576921); (-878576921); (-1257667337); (-1257667337); (-748618600); (-748618600)];
  [329347125; 329347125; 1837364258; 1837364258; (-1443016191); (-1443016191); (-1170414139); (-1170414139)];
  [(-1846138265); (-1631226336); (-1404529459); 1838055109; 1594295555; (-1076973524); (-1898723372); (-594436433)];
  [(-202001019); (-475984260); (-561427818); 1797021249; (-1061813248); 2059733581; (-1661512036); (-1104976547)];
  [(-1750224323); (-901666090); 418987550; 1831915353; (-1925356481); 992097815; 879957084; 2024403852];
  [1484874664; (-1636082790); (-285388938); (-1983539117); (-1495136972); (-950076368); (-1714807468); (-952438995)];
  [(-1574918427); 1350681039; (-2143979939); 1599739335; (-1285853323); (-993005454); (-1440787840); 568627424];
  [(-783134478); (-588790216); 289871779; (-1262003603); 2135294594; (-1018755525); (-889861155); 1665705315];
  [1321868265; 1225434135; (-1784632064); 666258756; 675310538; (-1555941048); (-1999506068); (-1499481951)];
  [(-695180180); (-1375177022); 1777179795; 334803717; (-178766299); (-518252220); 1957047970; 1146323031];
  [(-654783359); (-1974159335); 1651689966; 140455867; (-1039411342); 1955560694; 1529189038; (-2131021878)];
  [(-247357819); 1518161567; (-86965173); 1708872713; 1787797779; 1638590967; (-120646188); (-1669960606)];
  [(-916321552); 1155548552; 2143745726; 1210558298; (-1261461890); (-318346816); 628664287; (-1729304568)];
  [1422575624; 1424130038; (-1185330464); 235321234; 168022240; 1206536194; 985155484; (-894060583)];
  [(-898413); (-1363460238); (-605900043); 2027833504; 14253662; 1014493059; 863641633; 1819892093];
  [2124962073; (-1223601433); (-1920467227); (-1637785316); (-1536588520); 694382729; 235104446; (-1045062172)];
  [831969619; (-300448763); 756955444; (-260312805); 1554794072; 1339088280; (-2040058690); (-853476187)];
  [(-2047270596); (-1723816713); (-1591599803); (-440824168); 1119856484; 1544891539; 155290192; (-973777462)];
  [991903578; 912367099; (-44694137); 1176904444; (-421552614); (-818371958); 1747917558; (-325927722)];
  [908452108; 1851023419; (-1176751719); (-1354528380); (-72690498); (-314284737); 985022747; 963438279];
  [(-1078959975); 604552167; (-1021949428); 608791570; 173440395; (-2126092136); (-1316619236); (-1039370342)];
  [6087993; (-110126092); 565464272; (-1758099917); (-1600929361); 879867909; (-1809756372); 400711272];
  [1363007700; 30313375; (-326425360); 1683520342; (-517299994); 2027935492; (-1372618620); 128353682];
  [(-1123881663); 137583815; (-635454918); (-642772911); 45766801; 671509323; (-2070602178); 419615363];
  [1216882040; (-270590488); (-1276805128); 371462360; (-1357098057); (-384158533); 827959816; (-596344473)];
  [702390549; (-279505433); (-260424530); (-71875110); (-1208667171); (-1499603926); 2036925262; (-540420426)];
  [746144248; (-1420958686); 2032221021; 1904936414; 1257750362; 1926727420; 1931587462; 1258381762];
  [885133339; 1629985060; 1967222129; 6363718; (-1287922800); 1136965286; 1779436847; 1116720494];
  [1042326957; 1405999311; 713994583; 940195359; (-1542497137); 2061661095; (-883155599); 1726753853];
  [(-1547952704); 394851342; 283780712; 776003547; 1123958025; 201262505; 1934038751; 374860238];
  [(-3975713); 25847; (-2608894); (-518909); 237124; (-777960); (-876248); 466468];
  [1826347; 1826347; 1826347; 1826347; 2353451; 2353451; 2353451; 2353451];
  [(-359251); (-359251); (-359251); (-359251); (-2091905); (-2091905); (-2091905); (-2091905)];
  [3119733; 3119733; 3119733; 3119733; (-2884855); (-2884855); (-2884855); (-2884855)];
  [3111497; 3111497; 3111497; 3111497; 2680103; 2680103; 2680103; 2680103];
  [2725464; 2725464; 1024112; 1024112; (-1079900); (-1079900); 3585928; 3585928];
  [(-549488); (-549488); (-1119584); (-1119584); 2619752; 2619752; (-2108549); (-2108549)];
  [(-2118186); (-2118186); (-3859737); (-3859737); (-1399561); (-1399561); (-3277672); (-3277672)];
  [1757237; 1757237; (-19422); (-19422); 4010497; 4010497; 280005; 280005];
  [2706023; 95776; 3077325; 3530437; (-1661693); (-3592148); (-2537516); 3915439];
  [(-3861115); (-3043716); 3574422; (-2867647); 3539968; (-300467); 2348700; (-539299)];
  [(-1699267); (-1643818); 3505694; (-3821735); 3507263; (-2140649); (-1600420); 3699596];
  [811944; 531354; 954230; 3881043; 3900724; (-2556880); 2071892; (-2797779)];
  [(-3930395); (-3677745); (-1452451); 2176455; (-1257611); (-4083598); (-3190144); (-3632928)];
  [3412210; 2147896; (-2967645); (-411027); (-671102); (-22981); (-381987); 1852771];
  [(-3343383); 508951; 44288; 904516; (-3724342); 1653064; 2389356; 759969];
  [189548; 3159746; (-2409325); 1315589; 1285669; (-812732); (-3019102); (-3628969)];
  [(-1528703); (-3041255); 3475950; (-1585221); 1939314; (-1000202); (-3157330); 126922];
  [(-983419); 2715295; (-3693493); (-2477047); (-1228525); (-1308169); 1349076; (-1430430)];
  [264944; 3097992; (-1100098); 3958618; (-8578); (-3249728); (-210977); (-1316856)];
  [(-3553272); (-1851402); (-177440); 1341330; (-1584928); (-1439742); (-3881060); 3839961];
  [2091667; (-3342478); 266997; (-3520352); 900702; 495491; (-655327); (-3556995)];
  [342297; 3437287; 2842341; 4055324; (-3767016); (-2994039); (-1333058); (-451100)];
  [(-1279661); 1500165; (-542412); (-2584293); (-2013608); 1957272; (-3183426); 810149];
  [(-3038916); 2213111; (-426683); (-1667432); (-2939036); 183443; (-554416); 3937738];
  [3407706; 2244091; 2434439; (-3759364); 1859098; (-1613174); (-3122442); (-525098)];
  [286988; (-3342277); 2691481; 1247620; 1250494; 1869119; 1237275; 1312455];
  [1917081; 777191; (-2831860); (-3724270); 2432395; 3369112; 162844; 1652634];
  [3523897; (-975884); 1723600; (-1104333); (-2235985); (-976891); 3919660; 1400424];
  [2316500; (-2446433); (-1235728); (-1197226); 909542; (-43260); 2031748; (-768622)];
  [(-2437823); 1735879; (-2590150); 2486353; 2635921; 1903435; (-3318210); 3306115];
  [(-2546312); 2235880; (-1671176); 594136; 2454455; 185531; 1616392; (-3694233)];
  [3866901; 1717735; (-1803090); (-260646); (-420899); 1612842; (-48306); (-846154)];
  [3817976; (-3562462); 3513181; (-3193378); 819034; (-522500); 3207046; (-3595838)];
  [4108315; 203044; 1265009; 1595974; (-3548272); (-1050970); (-1430225); (-1962642)];
  [(-1374803); 3406031; (-1846953); (-3776993); (-164721); (-1207385); 3014001; (-1799107)];
  [269760; 472078; 1910376; (-3833893); (-2286327); (-3545687); (-1362209); 1976782]].
Definition _8XQ : nat := 0.
Definition _8XQINV : nat := 8.
Definition _8XDIV_QINV : nat := 16.
Definition _8XDIV : nat := 24.
Definition _ZETAS_QINV : nat := 32.
Definition _ZETAS : nat := 328.

(** The instructions. [r] numbers are ymm registers, [v] numbers are 32-byte vectors of memory,
    [w] numbers are 32-bit words of [qdata]. *)
Inductive instr : Type :=
| VLOAD (v r : nat)              (* vmovdqa 32*v(mem),%ymm r *)
| VSTORE (r v : nat)             (* vmovdqa %ymm r,32*v(mem) *)
| VMOV (a d : nat)               (* vmovdqa %ymm a,%ymm d *)
| VCONST (w r : nat)             (* vmovdqa w*4(qdata),%ymm r *)
| VBCAST (w r : nat)             (* vpbroadcastd w*4(qdata),%ymm r *)
| VPERMQ1B (w r : nat)           (* vpermq $0x1B,w*4(qdata),%ymm r *)
| VPMULDQ (a b d : nat)
| VMOVSHDUP (a d : nat)
| VMOVSLDUP (a d : nat)
| VPBLENDD_AA (a b d : nat)      (* vpblendd $0xAA: odd lanes from a, even lanes from b *)
| VPBLENDD_55 (a b d : nat)      (* vpblendd $0x55: even lanes from a, odd lanes from b *)
| VPSUBD (a b d : nat)           (* d = b - a *)
| VPADDD (a b d : nat)
| VPSUBQ (a b d : nat)
| VPADDQ (a b d : nat)
| VPSRLQ32 (a d : nat)
| VPERM2I128_20 (a b d : nat)    (* low halves: b's, then a's *)
| VPERM2I128_31 (a b d : nat)    (* high halves: b's, then a's *)
| VPUNPCKLQDQ (a b d : nat)
| VPUNPCKHQDQ (a b d : nat).

Section Machine.
Context {V : Type} (Ln : lane V).
Notation vec8 := (list V).

Fixpoint vset {A} (l : list A) (i : nat) (x : A) : list A :=
  match l, i with
  | [], _ => []
  | _ :: t, O => x :: t
  | h :: t, S j => h :: vset t j x
  end.

(** The instructions on lanes (Intel SDM, volume 2). *)
Fixpoint pmuldq (a b : vec8) : vec8 :=
  match a, b with
  | x :: _ :: a', y :: _ :: b' => let '(lo, hi) := l_mul Ln x y in lo :: hi :: pmuldq a' b'
  | _, _ => []
  end.
Fixpoint shdup (a : vec8) : vec8 :=
  match a with _ :: y :: a' => y :: y :: shdup a' | _ => [] end.
Fixpoint sldup (a : vec8) : vec8 :=
  match a with x :: _ :: a' => x :: x :: sldup a' | _ => [] end.
Fixpoint blend_odd (a b : vec8) : vec8 :=
  match a, b with _ :: y :: a', x :: _ :: b' => x :: y :: blend_odd a' b' | _, _ => [] end.
Fixpoint lanes2 (f : V -> V -> V) (a b : vec8) : vec8 :=
  match a, b with x :: a', y :: b' => f x y :: lanes2 f a' b' | _, _ => [] end.
Fixpoint quads2 (f : V * V -> V * V -> V * V) (a b : vec8) : vec8 :=
  match a, b with
  | x :: y :: a', z :: w :: b' => let '(lo, hi) := f (x, y) (z, w) in lo :: hi :: quads2 f a' b'
  | _, _ => []
  end.
Fixpoint srlq32 (a : vec8) : vec8 :=
  match a with _ :: y :: a' => y :: l_const Ln 0 :: srlq32 a' | _ => [] end.
Definition perm_lo (a b : vec8) : vec8 := firstn 4 b ++ firstn 4 a.
Definition perm_hi (a b : vec8) : vec8 := skipn 4 b ++ skipn 4 a.
Fixpoint unpckl (a b : vec8) : vec8 :=
  match a, b with
  | a0 :: a1 :: _ :: _ :: a', b0 :: b1 :: _ :: _ :: b' => b0 :: b1 :: a0 :: a1 :: unpckl a' b'
  | _, _ => []
  end.
Fixpoint unpckh (a b : vec8) : vec8 :=
  match a, b with
  | _ :: _ :: a2 :: a3 :: a', _ :: _ :: b2 :: b3 :: b' => b2 :: b3 :: a2 :: a3 :: unpckh a' b'
  | _, _ => []
  end.
(** vpermq $0x1B: the four quadwords in reverse order. *)
Fixpoint qrev (a : vec8) (acc : vec8) : vec8 :=
  match a with x :: y :: a' => qrev a' (x :: y :: acc) | _ => acc end.

(** Registers and memory. *)
Record mstate := { regs : list vec8; mem : list vec8 }.
Definition reg (s : mstate) (r : nat) : vec8 := nth r (regs s) [].
Definition setreg (s : mstate) (d : nat) (v : vec8) : mstate := {| regs := vset (regs s) d v; mem := mem s |}.
Definition qvec (w : nat) : vec8 := map (l_const Ln) (nth (w / 8) qdata []).
Definition qword (w : nat) : V := l_const Ln (nth (w mod 8) (nth (w / 8) qdata []) 0).

Definition exec (s : mstate) (i : instr) : mstate :=
  match i with
  | VLOAD v r => setreg s r (nth v (mem s) [])
  | VSTORE r v => {| regs := regs s; mem := vset (mem s) v (reg s r) |}
  | VMOV a d => setreg s d (reg s a)
  | VCONST w r => setreg s r (qvec w)
  | VBCAST w r => setreg s r (repeat (qword w) 8)
  | VPERMQ1B w r => setreg s r (qrev (qvec w) [])
  | VPMULDQ a b d => setreg s d (pmuldq (reg s b) (reg s a))
  | VMOVSHDUP a d => setreg s d (shdup (reg s a))
  | VMOVSLDUP a d => setreg s d (sldup (reg s a))
  | VPBLENDD_AA a b d => setreg s d (blend_odd (reg s a) (reg s b))
  | VPBLENDD_55 a b d => setreg s d (blend_odd (reg s b) (reg s a))
  | VPSUBD a b d => setreg s d (lanes2 (l_sub Ln) (reg s b) (reg s a))
  | VPADDD a b d => setreg s d (lanes2 (l_add Ln) (reg s b) (reg s a))
  | VPSUBQ a b d => setreg s d (quads2 (l_subq Ln) (reg s b) (reg s a))
  | VPADDQ a b d => setreg s d (quads2 (l_addq Ln) (reg s b) (reg s a))
  | VPSRLQ32 a d => setreg s d (srlq32 (reg s a))
  | VPERM2I128_20 a b d => setreg s d (perm_lo (reg s a) (reg s b))
  | VPERM2I128_31 a b d => setreg s d (perm_hi (reg s a) (reg s b))
  | VPUNPCKLQDQ a b d => setreg s d (unpckl (reg s a) (reg s b))
  | VPUNPCKHQDQ a b d => setreg s d (unpckh (reg s a) (reg s b))
  end.
Definition run (p : list instr) (s : mstate) : mstate := fold_left exec p s.
End Machine.
Arguments mstate V : clear implicits.

(** ** shuffle.inc 1-19 *)
Definition shuffle8 (r0 r1 r2 r3 : nat) : list instr :=
  [VPERM2I128_20 r1 r0 r2; VPERM2I128_31 r1 r0 r3].
Definition shuffle4 (r0 r1 r2 r3 : nat) : list instr :=
  [VPUNPCKLQDQ r1 r0 r2; VPUNPCKHQDQ r1 r0 r3].
Definition shuffle2 (r0 r1 r2 r3 : nat) : list instr :=
  [VMOVSLDUP r1 r2; VPBLENDD_AA r2 r0 r2; VPSRLQ32 r0 r0; VPBLENDD_AA r1 r0 r3].

(** Loads and stores of eight vectors. *)
Definition load8 (v : nat -> nat) : list instr := map (fun i => VLOAD (v i) (4 + i)) (seq 0 8).
Definition store8 (v : nat -> nat) (rs : list nat) : list instr :=
  map (fun i => VSTORE (nth i rs 0%nat) (v i)) (seq 0 8).

(** ** ntt.S *)
(** ntt.S 4-26: the [butterfly] macro. *)
Definition butterfly' (l h zl0 zl1 zh0 zh1 : nat) : list instr :=
  [VPMULDQ zl0 h 13; VMOVSHDUP h 12; VPMULDQ zl1 12 14;
   VPMULDQ zh0 h h; VPMULDQ zh1 12 12;
   VPMULDQ 0 13 13; VPMULDQ 0 14 14;
   VMOVSHDUP h h; VPBLENDD_AA 12 h h;
   VPSUBD h l 12; VPADDD h l l;
   VMOVSHDUP 13 13; VPBLENDD_AA 14 13 13;
   VPADDD 13 12 h; VPSUBD 13 l l].
Definition butterfly (l h : nat) : list instr := butterfly' l h 1 1 2 2.
Definition butterfly5 (l h : nat) : list instr := butterfly' l h 1 10 2 15.
Definition bcast_zeta (k : nat) : list instr := [VBCAST (_ZETAS_QINV + k) 1; VBCAST (_ZETAS + k) 2].
Definition vec_zeta (k : nat) : list instr := [VCONST (_ZETAS_QINV + k) 1; VCONST (_ZETAS + k) 2].
Definition vec_zeta5 (k : nat) : list instr := vec_zeta k ++ [VPSRLQ32 1 10; VMOVSHDUP 2 15].
(** ntt.S 28-66. *)
Definition levels0t1 (off : nat) : list instr :=
  bcast_zeta 1 ++ load8 (fun i => 4 * i + off)%nat ++
  butterfly 4 8 ++ butterfly 5 9 ++ butterfly 6 10 ++ butterfly 7 11 ++
  bcast_zeta 2 ++ butterfly 4 6 ++ butterfly 5 7 ++
  bcast_zeta 3 ++ butterfly 8 10 ++ butterfly 9 11 ++
  store8 (fun i => 4 * i + off)%nat [4; 5; 6; 7; 8; 9; 10; 11]%nat.
(** ntt.S 68-179. *)
Definition levels2t7 (off : nat) : list instr :=
  load8 (fun i => 8 * off + i)%nat ++ bcast_zeta (4 + off) ++
  butterfly 4 8 ++ butterfly 5 9 ++ butterfly 6 10 ++ butterfly 7 11 ++
  shuffle8 4 8 3 8 ++ shuffle8 5 9 4 9 ++ shuffle8 6 10 5 10 ++ shuffle8 7 11 6 11 ++
  vec_zeta (8 + 8 * off) ++
  butterfly 3 5 ++ butterfly 8 10 ++ butterfly 4 6 ++ butterfly 9 11 ++
  shuffle4 3 5 7 5 ++ shuffle4 8 10 3 10 ++ shuffle4 4 6 8 6 ++ shuffle4 9 11 4 11 ++
  vec_zeta (40 + 8 * off) ++
  butterfly 7 8 ++ butterfly 5 6 ++ butterfly 3 4 ++ butterfly 10 11 ++
  shuffle2 7 8 9 8 ++ shuffle2 5 6 7 6 ++ shuffle2 3 4 5 4 ++ shuffle2 10 11 3 11 ++
  vec_zeta5 (72 + 8 * off) ++
  butterfly5 9 5 ++ butterfly5 8 4 ++ butterfly5 7 3 ++ butterfly5 6 11 ++
  vec_zeta5 (104 + 8 * off) ++ butterfly5 9 7 ++ butterfly5 8 6 ++
  vec_zeta5 (104 + 8 * off + 32) ++ butterfly5 5 3 ++ butterfly5 4 11 ++
  vec_zeta5 (168 + 8 * off) ++ butterfly5 9 8 ++
  vec_zeta5 (168 + 8 * off + 32) ++ butterfly5 7 6 ++
  vec_zeta5 (168 + 8 * off + 64) ++ butterfly5 5 4 ++
  vec_zeta5 (168 + 8 * off + 96) ++ butterfly5 3 11 ++
  store8 (fun i => 8 * off + i)%nat [9; 8; 7; 6; 5; 4; 3; 11]%nat.
(** ntt.S 181-198: [ntt_avx]; memory is the polynomial at %rdi. *)
Definition ntt_prog : list instr :=
  VCONST _8XQ 0 :: flat_map levels0t1 [0; 1; 2; 3]%nat ++ flat_map levels2t7 [0; 1; 2; 3]%nat.

(** ** invntt.S *)
(** invntt.S 4-23. *)
Definition ibutterfly' (l h zl0 zl1 zh0 zh1 : nat) : list instr :=
  [VPSUBD l h 12; VPADDD h l l;
   VPMULDQ zl0 12 13; VMOVSHDUP 12 h; VPMULDQ zl1 h 14;
   VPMULDQ zh0 12 12; VPMULDQ zh1 h h;
   VPMULDQ 0 13 13; VPMULDQ 0 14 14;
   VPSUBD 13 12 12; VPSUBD 14 h h;
   VMOVSHDUP 12 12; VPBLENDD_AA h 12 h].
Definition ibutterfly (l h : nat) : list instr := ibutterfly' l h 1 1 2 2.
Definition ibutterfly5 (l h : nat) : list instr := ibutterfly' l h 1 3 2 15.
Definition perm_zeta (k : nat) : list instr := [VPERMQ1B (_ZETAS_QINV + k) 1; VPERMQ1B (_ZETAS + k) 2].
Definition perm_zeta5 (k : nat) : list instr :=
  [VPERMQ1B (_ZETAS_QINV + k) 3; VPERMQ1B (_ZETAS + k) 15; VMOVSHDUP 3 1; VMOVSHDUP 15 2].
(** invntt.S 25-132. *)
Definition levels0t5 (off : nat) : list instr :=
  load8 (fun i => 8 * off + i)%nat ++
  perm_zeta5 (296 - 8 * off - 8) ++ ibutterfly5 4 5 ++
  perm_zeta5 (296 - 8 * off - 40) ++ ibutterfly5 6 7 ++
  perm_zeta5 (296 - 8 * off - 72) ++ ibutterfly5 8 9 ++
  perm_zeta5 (296 - 8 * off - 104) ++ ibutterfly5 10 11 ++
  perm_zeta5 (168 - 8 * off - 8) ++ ibutterfly5 4 6 ++ ibutterfly5 5 7 ++
  perm_zeta5 (168 - 8 * off - 40) ++ ibutterfly5 8 10 ++ ibutterfly5 9 11 ++
  perm_zeta5 (104 - 8 * off - 8) ++
  ibutterfly5 4 8 ++ ibutterfly5 5 9 ++ ibutterfly5 6 10 ++ ibutterfly5 7 11 ++
  shuffle2 4 5 3 5 ++ shuffle2 6 7 4 7 ++ shuffle2 8 9 6 9 ++ shuffle2 10 11 8 11 ++
  perm_zeta (72 - 8 * off - 8) ++
  ibutterfly 3 5 ++ ibutterfly 4 7 ++ ibutterfly 6 9 ++ ibutterfly 8 11 ++
  shuffle4 3 4 10 4 ++ shuffle4 6 8 3 8 ++ shuffle4 5 7 6 7 ++ shuffle4 9 11 5 11 ++
  perm_zeta (40 - 8 * off - 8) ++
  ibutterfly 10 4 ++ ibutterfly 3 8 ++ ibutterfly 6 7 ++ ibutterfly 5 11 ++
  shuffle8 10 3 9 3 ++ shuffle8 6 5 10 5 ++ shuffle8 4 8 6 8 ++ shuffle8 7 11 4 11 ++
  bcast_zeta (7 - off) ++
  ibutterfly 9 3 ++ ibutterfly 10 5 ++ ibutterfly 6 8 ++ ibutterfly 4 11 ++
  store8 (fun i => 8 * off + i)%nat [9; 10; 6; 4; 3; 5; 8; 11]%nat.
(** invntt.S 171-192 and 194-215: multiplication of two registers by [8XDIV]. *)
Definition div2 (a b : nat) : list instr :=
  [VPMULDQ 1 a 12; VPMULDQ 1 b 13; VMOVSHDUP a 8; VMOVSHDUP b 9; VPMULDQ 1 8 14; VPMULDQ 1 9 15;
   VPMULDQ 2 a a; VPMULDQ 2 b b; VPMULDQ 2 8 8; VPMULDQ 2 9 9;
   VPMULDQ 0 12 12; VPMULDQ 0 13 13; VPMULDQ 0 14 14; VPMULDQ 0 15 15;
   VPSUBD 12 a a; VPSUBD 13 b b; VPSUBD 14 8 8; VPSUBD 15 9 9;
   VMOVSHDUP a a; VMOVSHDUP b b; VPBLENDD_AA 8 a a; VPBLENDD_AA 9 b b].
(** invntt.S 134-221. *)
Definition levels6t7 (off : nat) : list instr :=
  load8 (fun i => 4 * i + off)%nat ++
  bcast_zeta 3 ++ ibutterfly 4 6 ++ ibutterfly 5 7 ++
  bcast_zeta 2 ++ ibutterfly 8 10 ++ ibutterfly 9 11 ++
  bcast_zeta 0 ++ ibutterfly 4 8 ++ ibutterfly 5 9 ++ ibutterfly 6 10 ++ ibutterfly 7 11 ++
  map (fun i => VSTORE (8 + i) (16 + 4 * i + off)) (seq 0 4) ++
  [VCONST _8XDIV_QINV 1; VCONST _8XDIV 2] ++ div2 4 5 ++ div2 6 7 ++
  map (fun i => VSTORE (4 + i) (4 * i + off)) (seq 0 4).
(** invntt.S 223-240: [invntt_avx]. *)
Definition invntt_prog : list instr :=
  VCONST _8XQ 0 :: flat_map levels0t5 [0; 1; 2; 3]%nat ++ flat_map levels6t7 [0; 1; 2; 3]%nat.

(** ** shuffle.S 5-41 and 43-54: [nttunpack_avx]; [off] counts the 256-byte steps of %rdi. *)
Definition unpack128 (off : nat) : list instr :=
  load8 (fun i => 8 * off + i)%nat ++
  shuffle8 4 8 3 8 ++ shuffle8 5 9 4 9 ++ shuffle8 6 10 5 10 ++ shuffle8 7 11 6 11 ++
  shuffle4 3 5 7 5 ++ shuffle4 8 10 3 10 ++ shuffle4 4 6 8 6 ++ shuffle4 9 11 4 11 ++
  shuffle2 7 8 9 8 ++ shuffle2 5 6 7 6 ++ shuffle2 3 4 5 4 ++ shuffle2 10 11 3 11 ++
  store8 (fun i => 8 * off + i)%nat [9; 8; 7; 6; 5; 4; 3; 11]%nat.
Definition nttunpack_prog : list instr := flat_map unpack128 [0; 1; 2; 3]%nat.

(** ** The programs as functions on polynomials *)
(** A polynomial as 32 vectors and back. *)
Fixpoint chunks {A} (n : nat) (l : list A) : list (list A) :=
  match n with O => [] | S m => firstn 8 l :: chunks m (skipn 8 l) end.
Definition start {V} (R : list (list V)) (a : list V) : mstate V := {| regs := R; mem := chunks 32 a |}.
(** The registers hold anything when a function is entered. *)
Definition call (p : list instr) (R : list (list Z)) (a : list Z) : list Z := concat (mem (run zlane p (start R a))).
