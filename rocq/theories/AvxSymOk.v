(** * AvxSymOk: symbolic execution describes the real execution. *)
From Coq Require Import ZArith List Lia Bool.
From Verif Require Import Base Bits DilArith DilNtt DilNttProof AvxMachine AvxSym.
Import ListNotations.
Open Scope Z_scope.

(** ** Executions on related lanes stay related *)
Section Related.
Context {V W : Type} (A : lane V) (B : lane W) (R : V -> W -> Prop).
Hypothesis Rc : forall z, R (l_const A z) (l_const B z).
Definition R2 (p : V * V) (q : W * W) : Prop := R (fst p) (fst q) /\ R (snd p) (snd q).
Hypothesis Rm : forall x x' y y', R x x' -> R y y' -> R2 (l_mul A x y) (l_mul B x' y').
Hypothesis Ra : forall x x' y y', R x x' -> R y y' -> R (l_add A x y) (l_add B x' y').
Hypothesis Rs : forall x x' y y', R x x' -> R y y' -> R (l_sub A x y) (l_sub B x' y').
Hypothesis Raq : forall x x' y y', R2 x x' -> R2 y y' -> R2 (l_addq A x y) (l_addq B x' y').
Hypothesis Rsq : forall x x' y y', R2 x x' -> R2 y y' -> R2 (l_subq A x y) (l_subq B x' y').

Notation RV := (Forall2 R).
Notation RM := (Forall2 (Forall2 R)).
Definition RS (s : mstate V) (t : mstate W) : Prop := RM (regs s) (regs t) /\ RM (mem s) (mem t).

Lemma F2_nth : forall s t n, RM s t -> RV (nth n s []) (nth n t []).
Proof.
  intros s t n H. revert n. induction H as [|x y s t Hx H IH]; intros [|n]; cbn [nth]; auto.
Qed.
Lemma F2_vset : forall s t n x y, RM s t -> RV x y -> RM (vset s n x) (vset t n y).
Proof.
  intros s t n x y H Hx. revert n. induction H as [|u v s t Hu H IH]; intros [|n]; cbn [vset]; auto.
Qed.
Lemma F2_two : forall (P : list V -> list W -> Prop), P [] [] -> (forall x x', R x x' -> P [x] [x']) ->
  (forall x y l x' y' l', R x x' -> R y y' -> RV l l' -> P l l' -> P (x :: y :: l) (x' :: y' :: l')) ->
  forall l l', RV l l' -> P l l'.
Proof.
  intros P H0 H1 H2.
  assert (G : forall l l', RV l l' -> P l l' /\ forall x x', R x x' -> P (x :: l) (x' :: l')).
  { induction 1 as [|x x' l l' Hx Hl [IH1 IH2]].
    - split; auto.
    - split; [auto|]. intros y y' Hy. apply H2; auto. }
  intros l l' H. apply G. exact H.
Qed.
Lemma pmuldq_R : forall a a', RV a a' -> forall b b', RV b b' -> RV (pmuldq A a b) (pmuldq B a' b').
Proof.
  intros a a' Ha. pattern a, a'. revert a a' Ha. apply F2_two.
  - constructor.
  - intros. cbn. constructor.
  - intros x y l x' y' l' Hx Hy Hl IH b b' Hb. inversion Hb as [|z z' m m' Hz Hm]; subst; [constructor|].
    inversion Hm as [|z2 z2' n n' Hz2 Hn]; subst; [constructor|]. cbn [pmuldq].
    destruct (Rm x x' z z' Hx Hz) as [E1 E2]. destruct (l_mul A x z), (l_mul B x' z'). constructor; [exact E1|].
    constructor; [exact E2|]. apply IH. exact Hn.
Qed.
Lemma shdup_R : forall a a', RV a a' -> RV (shdup a) (shdup a').
Proof. apply F2_two; cbn; auto. Qed.
Lemma sldup_R : forall a a', RV a a' -> RV (sldup a) (sldup a').
Proof. apply F2_two; cbn; auto. Qed.
Lemma srlq32_R : forall a a', RV a a' -> RV (srlq32 A a) (srlq32 B a').
Proof. apply F2_two; cbn; auto. Qed.
Lemma qrev_R : forall a a', RV a a' -> forall b b', RV b b' -> RV (qrev a b) (qrev a' b').
Proof. intros a a' Ha. pattern a, a'. revert a a' Ha. apply F2_two; cbn; auto. Qed.
Lemma blend_R : forall a a', RV a a' -> forall b b', RV b b' -> RV (blend_odd a b) (blend_odd a' b').
Proof.
  intros a a' Ha. pattern a, a'. revert a a' Ha. apply F2_two; cbn; auto.
  intros x y l x' y' l' Hx Hy Hl IH b b' Hb. inversion Hb as [|z z' m m' Hz Hm]; subst; [constructor|].
  inversion Hm as [|z2 z2' n n' Hz2 Hn]; subst; [constructor|]. auto.
Qed.
Lemma lanes2_R : forall f g, (forall x x' y y', R x x' -> R y y' -> R (f x y) (g x' y')) ->
  forall a a', RV a a' -> forall b b', RV b b' -> RV (lanes2 f a b) (lanes2 g a' b').
Proof.
  intros f g H a a' Ha. induction Ha as [|x x' a a' Hx Ha IH]; intros b b' Hb; [constructor|].
  inversion Hb; subst; cbn; auto.
Qed.
Lemma quads2_R : forall f g, (forall x x' y y', R2 x x' -> R2 y y' -> R2 (f x y) (g x' y')) ->
  forall a a', RV a a' -> forall b b', RV b b' -> RV (quads2 f a b) (quads2 g a' b').
Proof.
  intros f g H a a' Ha. pattern a, a'. revert a a' Ha. apply F2_two; cbn; auto.
  intros x y l x' y' l' Hx Hy Hl IH b b' Hb. inversion Hb as [|z z' m m' Hz Hm]; subst; [constructor|].
  inversion Hm as [|z2 z2' n n' Hz2 Hn]; subst; [constructor|].
  destruct (H (x, y) (x', y') (z, z2) (z', z2')) as [E1 E2]; [split; assumption..|].
  destruct (f (x, y) (z, z2)), (g (x', y') (z', z2')). auto.
Qed.
Lemma firstn_R : forall n a a', RV a a' -> RV (firstn n a) (firstn n a').
Proof. intros n a a' H. revert n. induction H; intros [|n]; cbn; auto. Qed.
Lemma skipn_R : forall n a a', RV a a' -> RV (skipn n a) (skipn n a').
Proof. intros n a a' H. revert n. induction H; intros [|n]; cbn; auto. Qed.
Lemma four_R : forall (P : list V -> list W -> Prop), (forall l l', (length l < 4)%nat -> RV l l' -> P l l') ->
  (forall a b c d l a' b' c' d' l', R a a' -> R b b' -> R c c' -> R d d' -> RV l l' -> P l l' ->
     P (a :: b :: c :: d :: l) (a' :: b' :: c' :: d' :: l')) ->
  forall l l', RV l l' -> P l l'.
Proof.
  intros P H0 H4 l. remember (length l) as n eqn:N. revert l N.
  induction n as [n IH] using lt_wf_ind. intros l N l' H.
  destruct (Nat.lt_ge_cases (length l) 4) as [L|L]; [apply H0; assumption|].
  destruct H as [|a a' l l' Ha H]; [cbn in L; lia|]. destruct H as [|b b' l l' Hb H]; [cbn in L; lia|].
  destruct H as [|c c' l l' Hc H]; [cbn in L; lia|]. destruct H as [|d d' l l' Hd H]; [cbn in L; lia|].
  apply H4; auto. apply (IH (length l)); auto. subst n. cbn. lia.
Qed.
Lemma unpckl_R : forall a a', RV a a' -> forall b b', RV b b' -> RV (unpckl a b) (unpckl a' b').
Proof.
  intros a a' Ha. pattern a, a'. revert a a' Ha. apply four_R.
  - intros l l' L H b b' _. destruct H as [|? ? ? ? ? H]; [constructor|]. destruct H as [|? ? ? ? ? H]; [constructor|].
    destruct H as [|? ? ? ? ? H]; [constructor|]. destruct H as [|? ? ? ? ? H]; [constructor|]. cbn in L. lia.
  - intros a b c d l a' b' c' d' l' Ha Hb Hc Hd Hl IH m m' Hm.
    inversion Hm as [|? ? m1 m1' ? Hm1]; subst; [constructor|]. inversion Hm1 as [|? ? m2 m2' ? Hm2]; subst; [constructor|].
    inversion Hm2 as [|? ? m3 m3' ? Hm3]; subst; [constructor|]. inversion Hm3 as [|? ? m4 m4' ? Hm4]; subst; [constructor|].
    cbn [unpckl]. auto 10.
Qed.
Lemma unpckh_R : forall a a', RV a a' -> forall b b', RV b b' -> RV (unpckh a b) (unpckh a' b').
Proof.
  intros a a' Ha. pattern a, a'. revert a a' Ha. apply four_R.
  - intros l l' L H b b' _. destruct H as [|? ? ? ? ? H]; [constructor|]. destruct H as [|? ? ? ? ? H]; [constructor|].
    destruct H as [|? ? ? ? ? H]; [constructor|]. destruct H as [|? ? ? ? ? H]; [constructor|]. cbn in L. lia.
  - intros a b c d l a' b' c' d' l' Ha Hb Hc Hd Hl IH m m' Hm.
    inversion Hm as [|? ? m1 m1' ? Hm1]; subst; [constructor|]. inversion Hm1 as [|? ? m2 m2' ? Hm2]; subst; [constructor|].
    inversion Hm2 as [|? ? m3 m3' ? Hm3]; subst; [constructor|]. inversion Hm3 as [|? ? m4 m4' ? Hm4]; subst; [constructor|].
    cbn [unpckh]. auto 10.
Qed.
Lemma consts_R : forall l, RV (map (l_const A) l) (map (l_const B) l).
Proof. induction l; cbn; auto. Qed.
Lemma repeat_R : forall n x y, R x y -> RV (repeat x n) (repeat y n).
Proof. induction n; cbn; auto. Qed.

Lemma exec_R : forall i s t, RS s t -> RS (exec A s i) (exec B t i).
Proof.
  intros i s t [Hr Hm].
  assert (G : forall r, RV (reg s r) (reg t r)) by (intro r; apply F2_nth; exact Hr).
  assert (S : forall d x y, RV x y -> RS (setreg s d x) (setreg t d y)).
  { intros d x y H. split; cbn; [apply F2_vset; assumption|exact Hm]. }
  destruct i; cbn [exec]; try apply S; auto.
  - apply F2_nth. exact Hm.
  - split; cbn; [exact Hr|]. apply F2_vset; auto.
  - apply consts_R.
  - apply repeat_R. apply Rc.
  - apply qrev_R; [apply consts_R|constructor].
  - apply pmuldq_R; auto.
  - apply shdup_R; auto.
  - apply sldup_R; auto.
  - apply blend_R; auto.
  - apply blend_R; auto.
  - apply lanes2_R; auto.
  - apply lanes2_R; auto.
  - apply quads2_R; auto.
  - apply quads2_R; auto.
  - apply srlq32_R; auto.
  - apply Forall2_app; apply firstn_R; auto.
  - apply Forall2_app; apply skipn_R; auto.
  - apply unpckl_R; auto.
  - apply unpckh_R; auto.
Qed.
Lemma run_R : forall p s t, RS s t -> RS (run A p s) (run B p t).
Proof. induction p as [|i p IH]; intros s t H; [exact H|]. cbn [run fold_left]. apply IH. apply exec_R. exact H. Qed.
Lemma chunks_R : forall n a b, RV a b -> RM (chunks n a) (chunks n b).
Proof.
  induction n as [|n IH]; intros a b H; cbn [chunks]; constructor; [apply firstn_R; exact H|].
  apply IH, skipn_R, H.
Qed.
Lemma concat_R : forall s t, RM s t -> RV (concat s) (concat t).
Proof. induction 1; cbn; [constructor|]. apply Forall2_app; auto. Qed.
Lemma call_R : forall p RA RB a b, RM RA RB -> RV a b ->
  RV (concat (mem (run A p (start RA a)))) (concat (mem (run B p (start RB b)))).
Proof.
  intros p RA RB a b HR H. apply concat_R. apply (run_R p (start RA a) (start RB b)).
  split; [exact HR|apply chunks_R; exact H].
Qed.
End Related.

(** ** What the symbols stand for *)
(** Montgomery reduction as a number (reduce.c 15-21 without the overflow check). *)
Definition mred (a : Z) : Z := i32 (Z.shiftr (a - i32 (a * QINV) * Q) 32).
Lemma mred_spec : forall a r, montgomery_reduce a = CRet r -> r = mred a.
Proof.
  intros a r H. unfold montgomery_reduce in H. unfold chk64 in H. destruct (_ && _) in H; [|discriminate H].
  cbn [cbind] in H. injection H as <-. reflexivity.
Qed.

(** The values of the intermediate layers, tied together by the reference butterflies. *)
Record env := { ef : nat -> Z -> Z; ei : nat -> Z -> Z; ee : Z -> Z }.
Definition block_of (n j : Z) : Prop := 0 <= j < 256 /\ j mod (2 * n) < n.
Definition env_ok (E : env) : Prop :=
  (forall k j, (k < 8)%nat -> block_of (flen k) j ->
     fwd_step (zeta (128 / flen k + j / (2 * flen k))) (ef E k j) (ef E k (j + flen k)) =
       CRet (ef E (S k) j, ef E (S k) (j + flen k))) /\
  (forall k j, (k < 8)%nat -> block_of (ilen k) j ->
     inv_step (- zeta (256 / ilen k - 1 - j / (2 * ilen k))) (ei E k j) (ei E k (j + ilen k)) =
       CRet (ei E (S k) j, ei E (S k) (j + ilen k)) /\
     -2147483648 < ei E k j - ei E k (j + ilen k)) /\
  (forall j, 0 <= j < 128 -> ee E j = mred (F_INV * ei E 8 j)) /\
  (forall j, 0 <= j < 128 -> ee E (j + 128) = mred (ZLAST * (ei E 7 (j + 128) - ei E 7 j))).
Definition den (E : env) (a : atom) : Z :=
  match a with
  | AF k j => ef E k j
  | AI k j => ei E k j
  | AD k j => ei E k (j + ilen k) - ei E k j
  | AE j => ee E j
  end.
Definition srel (E : env) (s : sym) (v : Z) : Prop :=
  match s with
  | SC z => v = z
  | SA a => v = den E a
  | SLo z a => v = i32 (z * den E a)
  | SHi z a => v = i32 (Z.shiftr (z * den E a) 32)
  | SQ z a => v = i32 (Z.shiftr (i32 (z * den E a) * Q) 32)
  | SPlus a z b => v = i32 (den E a + i32 (Z.shiftr (z * den E b) 32))
  | SMinus a z b => v = i32 (den E a - i32 (Z.shiftr (z * den E b) 32))
  | SX => True
  end.

Lemma i32_mod : forall x y, i32 x = i32 y <-> x mod 4294967296 = y mod 4294967296.
Proof.
  intros x y. unfold i32. split; intro H.
  - assert (H1 : (x + 2147483648) mod 4294967296 = (y + 2147483648) mod 4294967296) by lia.
    pose proof (Z.div_mod (x + 2147483648) 4294967296 ltac:(lia)).
    pose proof (Z.div_mod (y + 2147483648) 4294967296 ltac:(lia)).
    set (a := (x + 2147483648) / 4294967296) in *. set (b := (y + 2147483648) / 4294967296) in *.
    replace x with (y + (a - b) * 4294967296) by lia. apply Z.mod_add. lia.
  - f_equal. rewrite <- Z.add_mod_idemp_l, H, Z.add_mod_idemp_l by lia. reflexivity.
Qed.
Lemma i32_eqm : forall x k, i32 (x + k * 4294967296) = i32 x.
Proof. intros. apply i32_mod. apply Z.mod_add. lia. Qed.
Lemma i32_l : forall x y, i32 (i32 x + y) = i32 (x + y).
Proof.
  intros x y. destruct (i32_cong x) as [k ->]. replace (x + k * 4294967296 + y) with (x + y + k * 4294967296) by ring.
  apply i32_eqm.
Qed.
Lemma i32_r : forall x y, i32 (x + i32 y) = i32 (x + y).
Proof. intros. rewrite Z.add_comm, i32_l, Z.add_comm. reflexivity. Qed.
Lemma i32_sub_r : forall x y, i32 (x - i32 y) = i32 (x - y).
Proof.
  intros x y. destruct (i32_cong y) as [k ->]. replace (x - (y + k * 4294967296)) with (x - y + (- k) * 4294967296) by ring.
  apply i32_eqm.
Qed.
Lemma i32_sub_l : forall x y, i32 (i32 x - y) = i32 (x - y).
Proof. intros. unfold Z.sub. apply i32_l. Qed.

(** High halves subtract exactly because the low halves agree. *)
Lemma mred_halves : forall z zq x, zq = i32 (z * QINV) ->
  i32 (Z.shiftr (z * x) 32 - Z.shiftr (i32 (zq * x) * Q) 32) = mred (z * x).
Proof.
  intros z zq x ->.
  assert (T : i32 (i32 (z * QINV) * x) = i32 (z * x * QINV)).
  { destruct (i32_cong (z * QINV)) as [k ->].
    replace ((z * QINV + k * 4294967296) * x) with (z * x * QINV + (k * x) * 4294967296) by ring. apply i32_eqm. }
  rewrite T. unfold mred. set (p := z * x). destruct (i32_cong (p * QINV)) as [k Hk]. set (t := i32 (p * QINV)) in *.
  assert (D : exists m, p - t * Q = m * 4294967296).
  { exists (p * -114592 - k * Q). rewrite Hk. unfold QINV, Q. ring. }
  destruct D as [m D]. rewrite !Z.shiftr_div_pow2 by lia. change (2 ^ 32) with 4294967296.
  rewrite D, Z.div_mul by lia. f_equal. replace p with (t * Q + m * 4294967296) by lia.
  rewrite Z.div_add by lia. lia.
Qed.

Lemma atom_eqb_ok : forall a b, atom_eqb a b = true -> a = b.
Proof.
  intros [k j|k j|k j|j] [k' j'|k' j'|k' j'|j']; cbn; intro H; try discriminate H;
    try (apply andb_true_iff in H; destruct H as [H1 H2]; apply Nat.eqb_eq in H1; apply Z.eqb_eq in H2; congruence).
  apply Z.eqb_eq in H. congruence.
Qed.
Lemma fwd_pair_ok : forall a z b k j, fwd_pair a z b = Some (k, j) ->
  a = AF k j /\ b = AF k (j + flen k) /\ (k < 8)%nat /\ block_of (flen k) j /\ z = zeta (128 / flen k + j / (2 * flen k)).
Proof.
  intros a z b k j H. unfold fwd_pair in H. destruct a as [k0 j0| | |]; try discriminate H.
  destruct b as [k1 j1| | |]; try discriminate H. destruct (_ && _) eqn:G in H; [|discriminate H].
  injection H as <- <-. rewrite !andb_true_iff in G. destruct G as [[[[[[G1 G2] G3] G4] G5] G6] G7].
  apply Nat.eqb_eq in G1. apply Nat.ltb_lt in G2. apply Z.eqb_eq in G3, G7. apply Z.leb_le in G4. apply Z.ltb_lt in G5, G6.
  subst. repeat split; auto.
Qed.
Lemma inv_pair_ok : forall k j, inv_pair k j = true -> (k < 8)%nat /\ block_of (ilen k) j.
Proof.
  intros k j G. unfold inv_pair in G. rewrite !andb_true_iff in G. destruct G as [[[G2 G4] G5] G6].
  apply Nat.ltb_lt in G2. apply Z.leb_le in G4. apply Z.ltb_lt in G5, G6. repeat split; auto.
Qed.
Lemma qinv_of_ok : forall z zq, qinv_of z zq = true -> zq = i32 (z * QINV).
Proof. intros z zq H. apply Z.eqb_eq in H. exact H. Qed.

Lemma chk32_inv : forall x r, chk32 x = CRet r -> r = x /\ in32 x.
Proof.
  intros x r H. unfold chk32 in H. destruct (_ && _) eqn:G in H; [|discriminate H]. injection H as <-.
  apply andb_true_iff in G. destruct G as [G1 G2]. apply Z.leb_le in G1. apply Z.ltb_lt in G2. split; [reflexivity|split; assumption].
Qed.
Lemma fwd_step_inv : forall z x y x' y', fwd_step z x y = CRet (x', y') ->
  x' = x + mred (z * y) /\ y' = x - mred (z * y) /\ in32 x' /\ in32 y'.
Proof.
  intros z x y x' y' H. unfold fwd_step in H. destruct (montgomery_reduce (z * y)) as [t| |] eqn:M; try discriminate H.
  cbn [cbind] in H. apply mred_spec in M. subst t.
  destruct (chk32 (x - mred (z * y))) as [u| |] eqn:U; try discriminate H. cbn [cbind] in H.
  destruct (chk32 (x + mred (z * y))) as [v| |] eqn:Vv; try discriminate H. cbn [cbind] in H. injection H as <- <-.
  apply chk32_inv in U, Vv. destruct U as [-> U], Vv as [-> Vv]. auto.
Qed.
Lemma inv_step_inv : forall z x y x' y', inv_step z x y = CRet (x', y') ->
  x' = x + y /\ y' = mred (z * (x - y)) /\ in32 (x + y) /\ in32 (x - y).
Proof.
  intros z x y x' y' H. unfold inv_step in H. destruct (chk32 (x + y)) as [u| |] eqn:U; try discriminate H. cbn [cbind] in H.
  destruct (chk32 (x - y)) as [v| |] eqn:Vv; try discriminate H. cbn [cbind] in H.
  destruct (montgomery_reduce (z * v)) as [t| |] eqn:M; try discriminate H. cbn [cbind] in H. apply mred_spec in M.
  injection H as <- <-. apply chk32_inv in U, Vv. destruct U as [-> U], Vv as [-> Vv]. auto.
Qed.
Lemma mred_i32 : forall x, i32 (mred x) = mred x.
Proof. intro x. apply i32_id. unfold mred. apply i32_range. Qed.

Section Sound.
Variable E : env.
Hypothesis OK : env_ok E.
Lemma s_mul_ok : forall x x' y y', srel E x x' -> srel E y y' -> R2 (srel E) (l_mul slane x y) (l_mul zlane x' y').
Proof.
  intros x x' y y' Hx Hy. cbn [l_mul slane zlane]. unfold split64, R2. cbn [fst snd].
  destruct x, y; cbn [s_mul fst snd srel] in *; auto; subst.
  - split; reflexivity.
  - destruct (Z.eqb_spec z Q); cbn [fst snd srel]; auto. subst z. split; [exact Logic.I|]. rewrite Z.mul_comm. reflexivity.
  - rewrite (Z.mul_comm _ z). split; reflexivity.
  - destruct (Z.eqb_spec z0 Q); cbn [fst snd srel]; auto. subst z0. split; [exact Logic.I|reflexivity].
Qed.
Lemma s_add_ok : forall x x' y y', srel E x x' -> srel E y y' -> srel E (l_add slane x y) (l_add zlane x' y').
Proof.
  intros x x' y y' Hx Hy. cbn [l_add slane zlane].
  destruct x as [| a | | | | |a z b|]; cbn [s_add]; try exact Logic.I.
  - destruct a as [k j|k j|k j|j], y as [|a'|z b|z b|z b|? ? ?|? ? ?|]; try exact Logic.I; cbn [srel] in *; try (subst; reflexivity);
      try (destruct a'; exact Logic.I).
    destruct a' as [| k' j'| |]; try exact Logic.I.
    destruct (_ && _) eqn:G; [|exact Logic.I]. rewrite !andb_true_iff in G. destruct G as [[G1 G2] G3].
    apply Nat.eqb_eq in G1. apply Z.eqb_eq in G2. apply inv_pair_ok in G3. subst k' j'. cbn [srel den] in *.
    destruct OK as (_ & H & _). destruct G3 as [K Bk]. destruct (H k j K Bk) as [H' _]. apply inv_step_inv in H'.
    destruct H' as (H1 & _ & H3 & _). subst x' y'. rewrite H1. apply i32_id. exact H3.
  - destruct y as [| | | |zq b'| | |]; try exact Logic.I. destruct (_ && _) eqn:G; [|exact Logic.I].
    apply andb_true_iff in G. destruct G as [G1 G2]. apply atom_eqb_ok in G1. apply qinv_of_ok in G2. subst b'.
    destruct (fwd_pair a z b) as [[k j]|] eqn:P; [|exact Logic.I]. apply fwd_pair_ok in P.
    destruct P as (-> & -> & K & Bk & Zk). cbn [srel den] in *. destruct OK as (H & _).
    specialize (H k j K Bk). rewrite <- Zk in H. apply fwd_step_inv in H. destruct H as (_ & H2 & _ & H4).
    rewrite <- (i32_id (ef E (S k) (j + flen k)) H4), H2. subst x' y'.
    rewrite i32_l, i32_r.
    rewrite (Z.add_comm _ (Z.shiftr (i32 (zq * _) * Q) 32)), Z.add_sub_assoc, i32_sub_r.
    rewrite <- (mred_halves z zq (ef E k (j + flen k)) G2). rewrite i32_sub_r. f_equal. lia.
Qed.
Lemma s_sub_ok : forall x x' y y', srel E x x' -> srel E y y' -> srel E (l_sub slane x y) (l_sub zlane x' y').
Proof.
  intros x x' y y' Hx Hy. cbn [l_sub slane zlane].
  destruct x as [| a | |z a| |a z b| |]; cbn [s_sub]; try exact Logic.I.
  - destruct a as [k j|k' j'|k j|j], y as [|a'|z b|z b|z b|? ? ?|? ? ?|]; try exact Logic.I; cbn [srel] in *; try (subst; reflexivity);
      try (destruct a'; exact Logic.I).
    destruct a' as [| k j| |]; try exact Logic.I.
    destruct (_ && _) eqn:G; [|exact Logic.I]. rewrite !andb_true_iff in G. destruct G as [[G1 G2] G3].
    apply Nat.eqb_eq in G1. apply Z.eqb_eq in G2. apply inv_pair_ok in G3. subst k' j'. cbn [srel den] in *.
    destruct OK as (_ & H & _). destruct G3 as [K Bk]. destruct (H k j K Bk) as [H' N]. apply inv_step_inv in H'.
    destruct H' as (_ & _ & _ & H4). subst x' y'. apply i32_id. unfold in32 in *. lia.
  - destruct a as [k j|k j|k j|j]; try exact Logic.I; destruct y as [| | | |zq b'| | |]; try exact Logic.I.
    + destruct (_ && _) eqn:G; [|exact Logic.I]. rewrite !andb_true_iff in G.
      destruct G as [[[[[G1 G2] G3] G4] G5] G6]. apply atom_eqb_ok in G1. apply qinv_of_ok in G2.
      apply Nat.eqb_eq in G3. apply Z.eqb_eq in G4. apply Z.leb_le in G5. apply Z.ltb_lt in G6. subst b' k z.
      cbn [srel den] in *. destruct OK as (_ & _ & H & _). rewrite H by lia. subst x' y'.
      rewrite i32_sub_l, i32_sub_r. apply mred_halves. exact G2.
    + destruct (_ && _) eqn:G; [|exact Logic.I]. rewrite !andb_true_iff in G.
      destruct G as [[G1 G2] G3]. apply atom_eqb_ok in G1. apply qinv_of_ok in G2. apply inv_pair_ok in G3. subst b'.
      destruct G3 as [K Bk]. cbn [srel den] in Hx, Hy. subst x' y'. rewrite i32_sub_l, i32_sub_r, (mred_halves z zq _ G2).
      destruct (Z.eqb_spec z (zeta (256 / ilen k - 1 - j / (2 * ilen k)))) as [Zk|Zk].
      * cbn [srel den]. destruct OK as (_ & H & _). destruct (H k j K Bk) as [H' _]. rewrite <- Zk in H'. apply inv_step_inv in H'.
        destruct H' as (_ & H2 & _). rewrite H2. f_equal. ring.
      * destruct (_ && _) eqn:G; [|exact Logic.I]. apply andb_true_iff in G. destruct G as [G3 G4].
        apply Nat.eqb_eq in G3. apply Z.eqb_eq in G4. subst k z. cbn [srel den]. destruct OK as (_ & _ & _ & H).
        unfold ilen in Bk |- *. cbn [nth] in Bk |- *. destruct Bk as [B1 B2].
        rewrite H; [reflexivity|]. change (2 * 128) with 256 in B2. rewrite Z.mod_small in B2 by lia. lia.
  - destruct y as [| | | |zq b'| | |]; try exact Logic.I. destruct (_ && _) eqn:G; [|exact Logic.I].
    apply andb_true_iff in G. destruct G as [G1 G2]. apply atom_eqb_ok in G1. apply qinv_of_ok in G2. subst b'.
    destruct (fwd_pair a z b) as [[k j]|] eqn:P; [|exact Logic.I]. apply fwd_pair_ok in P.
    destruct P as (-> & -> & K & Bk & Zk). cbn [srel den] in *. destruct OK as (H & _).
    specialize (H k j K Bk). rewrite <- Zk in H. apply fwd_step_inv in H. destruct H as (H2 & _ & H4 & _).
    rewrite <- (i32_id (ef E (S k) j) H4), H2. subst x' y'.
    rewrite i32_sub_l, i32_sub_r. unfold Z.sub.
    rewrite <- Z.add_assoc, (Z.add_comm (i32 _)), Z.add_assoc, i32_r.
    rewrite <- (mred_halves z zq (ef E k (j + flen k)) G2), i32_r. f_equal. lia.
Qed.
Theorem sym_call : forall p R a s, Forall2 (Forall2 (srel E)) sregs R -> Forall2 (srel E) s a ->
  Forall2 (srel E) (srun p s) (call p R a).
Proof.
  intros p R a s HR H. unfold srun, call. apply (call_R slane zlane (srel E)); auto.
  - reflexivity.
  - apply s_mul_ok.
  - apply s_add_ok.
  - apply s_sub_ok.
  - intros. split; exact Logic.I.
  - intros. split; exact Logic.I.
Qed.
End Sound.

(** The register contents on entry to a function: anything. *)
Definition regs_ok (R : list (list Z)) : Prop := length R = 16%nat /\ Forall (fun v => length v = 8%nat) R.
Lemma F2_repeat : forall {A B} (P : A -> B -> Prop) x n v, length v = n -> (forall y, In y v -> P x y) -> Forall2 P (repeat x n) v.
Proof.
  intros A B P x n v <- H. induction v as [|y v IH]; cbn [length repeat]; constructor; [apply H; left; reflexivity|].
  apply IH. intros z Hz. apply H. right. exact Hz.
Qed.
