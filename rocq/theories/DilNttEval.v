(** * DilNttEval: ntt = evaluation at the roots, invntt_tomont = interpolation. *)
From Coq Require Import ZArith List Lia Bool.
From Verif Require Import Base Bits SaberPoly Ring SaberRing DilArith DilNtt DilNttProof.
Import ListNotations.
Open Scope Z_scope.

Fixpoint chain (R : nat -> poly -> poly -> Prop) (ls : list nat) (a v : poly) : Prop :=
  match ls with
  | [] => a = v
  | l :: r => exists a', R l a a' /\ chain R r a' v
  end.

Lemma ntt_chain : forall a B, length a = 256%nat -> bnd B a -> B + 8 * Q < 2147483648 ->
  exists v, ntt a = CRet v /\ length v = 256%nat /\ bnd (B + 8 * Q) v /\ chain fwd_rel lens_fwd a v.
Proof.
  intros a B L H HB. unfold ntt, lens_fwd. cbn [foldM].
  assert (QP : 0 < Q) by reflexivity.
  Ltac stepf len a B L H k :=
    let a' := fresh "a" in let E := fresh "E" in let L' := fresh "L" in let H' := fresh "H" in let R := fresh "R" in
    destruct (fwd_layer_ok len a B) as (a' & E & L' & H' & R);
      [cbn; tauto|exact L|exact H|lia|];
    let k1 := eval vm_compute in (128 / len - 1)%nat in
    let k2 := eval vm_compute in (2 * (128 / len) - 1)%nat in
    change (128 / len - 1)%nat with k1 in E; change (2 * (128 / len) - 1)%nat with k2 in E;
    rewrite E; cbn [cbind]; clear E; k a' L' H' R.
  stepf 128%nat a B L H ltac:(fun a1 L1 H1 R1 =>
  stepf 64%nat a1 (B + Q) L1 H1 ltac:(fun a2 L2 H2 R2 =>
  stepf 32%nat a2 (B + Q + Q) L2 H2 ltac:(fun a3 L3 H3 R3 =>
  stepf 16%nat a3 (B + Q + Q + Q) L3 H3 ltac:(fun a4 L4 H4 R4 =>
  stepf 8%nat a4 (B + Q + Q + Q + Q) L4 H4 ltac:(fun a5 L5 H5 R5 =>
  stepf 4%nat a5 (B + Q + Q + Q + Q + Q) L5 H5 ltac:(fun a6 L6 H6 R6 =>
  stepf 2%nat a6 (B + Q + Q + Q + Q + Q + Q) L6 H6 ltac:(fun a7 L7 H7 R7 =>
  stepf 1%nat a7 (B + Q + Q + Q + Q + Q + Q + Q) L7 H7 ltac:(fun a8 L8 H8 R8 =>
    exists a8; split; [reflexivity|]; split; [exact L8|]; split;
    [ intros p Hp; specialize (H8 p Hp); lia
    | exists a1; split; [exact R1|]; exists a2; split; [exact R2|]; exists a3; split; [exact R3|];
      exists a4; split; [exact R4|]; exists a5; split; [exact R5|]; exists a6; split; [exact R6|];
      exists a7; split; [exact R7|]; exists a8; split; [exact R8|]; reflexivity ])))))))).
Qed.

(** The loop of the inverse transform, before the final multiplication. *)
Lemma inv_chain : forall a, length a = 256%nat -> bnd Q a ->
  exists v, foldM inv_layer lens_inv (256%nat, a) = CRet (1%nat, v) /\ length v = 256%nat /\
    bnd (256 * Q) v /\ chain inv_rel lens_inv a v.
Proof.
  intros a L H. unfold lens_inv. cbn [foldM].
  assert (QP : Q = 8380417) by reflexivity.
  Ltac stepi len a B L H k :=
    let a' := fresh "a" in let E := fresh "E" in let L' := fresh "L" in let H' := fresh "H" in let R := fresh "R" in
    destruct (inv_layer_ok len a B) as (a' & E & L' & H' & R);
      [cbn; tauto|exact L|exact H|lia|lia|];
    let k1 := eval vm_compute in (256 / len)%nat in
    let k2 := eval vm_compute in (256 / len - 128 / len)%nat in
    change (256 / len - 128 / len)%nat with k2 in E; change (256 / len)%nat with k1 in E;
    rewrite E; cbn [cbind]; clear E; k a' L' H' R.
  stepi 1%nat a Q L H ltac:(fun a1 L1 H1 R1 =>
  stepi 2%nat a1 (2 * Q) L1 H1 ltac:(fun a2 L2 H2 R2 =>
  stepi 4%nat a2 (2 * (2 * Q)) L2 H2 ltac:(fun a3 L3 H3 R3 =>
  stepi 8%nat a3 (2 * (2 * (2 * Q))) L3 H3 ltac:(fun a4 L4 H4 R4 =>
  stepi 16%nat a4 (2 * (2 * (2 * (2 * Q)))) L4 H4 ltac:(fun a5 L5 H5 R5 =>
  stepi 32%nat a5 (2 * (2 * (2 * (2 * (2 * Q))))) L5 H5 ltac:(fun a6 L6 H6 R6 =>
  stepi 64%nat a6 (2 * (2 * (2 * (2 * (2 * (2 * Q)))))) L6 H6 ltac:(fun a7 L7 H7 R7 =>
  stepi 128%nat a7 (2 * (2 * (2 * (2 * (2 * (2 * (2 * Q))))))) L7 H7 ltac:(fun a8 L8 H8 R8 =>
    exists a8; split; [reflexivity|]; split; [exact L8|]; split;
    [ intros p Hp; specialize (H8 p Hp); lia
    | exists a1; split; [exact R1|]; exists a2; split; [exact R2|]; exists a3; split; [exact R3|];
      exists a4; split; [exact R4|]; exists a5; split; [exact R5|]; exists a6; split; [exact R6|];
      exists a7; split; [exact R7|]; exists a8; split; [exact R8|]; reflexivity ])))))))).
Qed.

(** ** Roots *)
(** The evaluation point of output position [p]. *)
Definition root (p : nat) : Z :=
  let z := zr (at_ zetas (128 + p / 2)) in
  (if Nat.even p then z else - z) mod Q.
Fixpoint sqs (e : nat) (x : Z) : Z := match e with O => x | S e' => sqs e' (x * x mod Q) end.
Lemma eqq_pow : forall n a b, 0 <= n -> eqq a b -> eqq (a ^ n) (b ^ n).
Proof.
  intros n a b Hn E. revert n Hn. apply natlike_ind.
  - apply eqq_refl.
  - intros n Hn IH. rewrite !Z.pow_succ_r by exact Hn. apply eqq_mul; assumption.
Qed.
Lemma sqs_pow : forall e x, eqq (sqs e x) (x ^ (2 ^ Z.of_nat e)).
Proof.
  induction e as [|e IH]; intro x; cbn [sqs].
  - change (2 ^ Z.of_nat 0) with 1. rewrite Z.pow_1_r. apply eqq_refl.
  - eapply eqq_trans; [apply IH|].
    replace (2 ^ Z.of_nat (S e)) with (2 * 2 ^ Z.of_nat e)
      by (rewrite Nat2Z.inj_succ, Z.pow_succ_r by lia; reflexivity).
    rewrite Z.pow_mul_r by lia. rewrite Z.pow_2_r.
    apply eqq_pow; [lia|]. apply eqq_mod. apply Z.mod_mod. discriminate.
Qed.
Definition lens_log : list (nat * nat) := [(128,7);(64,6);(32,5);(16,4);(8,3);(4,2);(2,1);(1,0)]%nat.
Definition side (len p : nat) : Z := if ((p mod (2 * len)) <? len)%nat then 1 else -1.
Lemma root_table :
  forallb (fun '(len, e) => forallb (fun p =>
    (sqs e (root p) - side len p * zr (at_ zetas (128 / len + p / (2 * len)))) mod Q =? 0) (seq 0 256)) lens_log = true.
Proof. vm_compute. reflexivity. Qed.
Lemma root_pow : forall len p, In len lens_fwd -> (p < 256)%nat ->
  eqq (root p ^ Z.of_nat len) (side len p * zr (at_ zetas (128 / len + p / (2 * len)))).
Proof.
  intros len p Hl Hp.
  assert (exists e, In (len, e) lens_log /\ Z.of_nat len = 2 ^ Z.of_nat e) as (e & He & El).
  { cbn in Hl. repeat (destruct Hl as [<-|Hl]; [eexists; split; [cbn; tauto|reflexivity]|]). destruct Hl. }
  pose proof root_table as T. rewrite forallb_forall in T. specialize (T _ He). cbn beta iota in T.
  rewrite forallb_forall in T. specialize (T p). rewrite Z.eqb_eq in T.
  rewrite El. eapply eqq_trans; [apply eqq_sym, sqs_pow|].
  assert (M : (sqs e (root p) - side len p * zr (at_ zetas (128 / len + p / (2 * len)))) mod Q = 0 mod Q)
    by (rewrite T; [reflexivity|apply in_seq; lia]).
  apply eqq_mod in M. destruct M as [k M]. exists k. lia.
Qed.
Lemma root_256 : forall p, (p < 256)%nat -> eqq (root p ^ 256) (-1).
Proof.
  intros p Hp. change 256 with (Z.of_nat 128 * 2). rewrite Z.pow_mul_r, Z.pow_2_r by lia.
  pose proof (root_pow 128 p ltac:(cbn; auto) Hp) as R.
  eapply eqq_trans; [apply eqq_mul; exact R|].
  change (128 / 128)%nat with 1%nat. change (2 * 128)%nat with 256%nat. rewrite (Nat.div_small p 256) by exact Hp.
  set (z := zr (at_ zetas (1 + 0))).
  replace (side 128 p * z * (side 128 p * z)) with (z * z) by (unfold side; destruct (_ <? _)%nat; ring).
  exists ((z * z + 1) / Q). vm_compute. reflexivity.
Qed.
Lemma inv_twiddles : forall len b, In len lens_fwd -> (b < 128 / len)%nat ->
  eqq (zr (at_ zetas (128 / len + b)) * zr (- at_ zetas (256 / len - 1 - b))) 1.
Proof.
  intros len b Hl Hb.
  assert (T : forallb (fun len => forallb (fun b =>
      (zr (at_ zetas (128 / len + b)) * zr (- at_ zetas (256 / len - 1 - b)) - 1) mod Q =? 0) (seq 0 (128 / len))) lens_fwd = true)
    by (vm_compute; reflexivity).
  rewrite forallb_forall in T. specialize (T _ Hl). rewrite forallb_forall in T. specialize (T b).
  rewrite Z.eqb_eq in T. rewrite in_seq in T. specialize (T ltac:(lia)).
  change 0 with (0 mod Q) in T. apply eqq_mod in T. destruct T as [k T]. exists k. lia.
Qed.

(** ** Evaluation *)
Definition nsum (n : nat) (f : nat -> Z) : Z := zsum n (fun i => f (Z.to_nat i)).
Lemma nsum_S : forall n f, nsum (S n) f = nsum n f + f n.
Proof. intros. unfold nsum. cbn [zsum]. rewrite Nat2Z.id. lia. Qed.
Lemma nsum_ext : forall n f g, (forall i, (i < n)%nat -> f i = g i) -> nsum n f = nsum n g.
Proof. induction n; intros f g H; [reflexivity|]. rewrite !nsum_S, (IHn f g), (H n) by auto. reflexivity. Qed.
Lemma nsum_eqq : forall n f g, (forall i, (i < n)%nat -> eqq (f i) (g i)) -> eqq (nsum n f) (nsum n g).
Proof. induction n; intros f g H; [apply eqq_refl|]. rewrite !nsum_S. apply eqq_add; auto. Qed.
Lemma nsum_split : forall m n f, nsum (n + m) f = nsum n f + nsum m (fun i => f (n + i)%nat).
Proof.
  induction m; intros n f.
  - rewrite Nat.add_0_r. unfold nsum at 3. cbn. lia.
  - rewrite Nat.add_succ_r, !nsum_S, IHm. lia.
Qed.
Lemma nsum_scal : forall n c f, nsum n (fun i => c * f i) = c * nsum n f.
Proof. induction n; intros; [unfold nsum; cbn; lia|]. rewrite !nsum_S, IHn. ring. Qed.
Lemma nsum_add : forall n f g, nsum n (fun i => f i + g i) = nsum n f + nsum n g.
Proof. induction n; intros; [reflexivity|]. rewrite !nsum_S, IHn. ring. Qed.

(** Value at the point of position [p] of the part of the array that belongs to the block of
    size [n] containing [p]. *)
Definition part (n p : nat) (a : poly) : Z :=
  nsum n (fun t => at_ a (p / n * n + t) * root p ^ Z.of_nat t).

Lemma part_step : forall len p a a', In len lens_fwd -> (p < 256)%nat -> fwd_rel len a a' ->
  eqq (part (2 * len) p a) (part len p a').
Proof.
  intros len p a a' Hl Hp R. destruct (len_div len Hl) as [E P].
  unfold part. replace (2 * len)%nat with (len + len)%nat at 1 by lia. rewrite nsum_split.
  set (b := (p / (2 * len))%nat).
  assert (Hb : (b < 128 / len)%nat) by (apply Nat.div_lt_upper_bound; nia).
  pose proof (Nat.div_mod p (2 * len) ltac:(lia)) as D. fold b in D.
  pose proof (Nat.mod_upper_bound p (2 * len) ltac:(lia)) as M.
  set (r := root p). set (z := zr (at_ zetas (128 / len + b))).
  assert (Rp : eqq (r ^ Z.of_nat len) (side len p * z)) by (apply root_pow; auto).
  assert (Bp : (p / len * len = if (p mod (2 * len) <? len)%nat then b * (2 * len) else b * (2 * len) + len)%nat).
  { destruct (Nat.ltb_spec (p mod (2 * len)) len) as [H|H].
    - replace (p / len)%nat with (2 * b)%nat; [nia|]. apply (Nat.div_unique p len _ (p mod (2 * len))); nia.
    - replace (p / len)%nat with (2 * b + 1)%nat; [nia|]. apply (Nat.div_unique p len _ (p mod (2 * len) - len)); nia. }
  rewrite <- nsum_add. apply nsum_eqq. intros t Ht. fold b. rewrite Bp.
  rewrite Nat2Z.inj_add, Z.pow_add_r by lia.
  destruct (R b t Hb Ht) as [R1 R2]. cbn zeta in R1, R2. fold z in R1, R2.
  rewrite (Nat.add_assoc (b * (2 * len)) len t), (Nat.add_shuffle0 (b * (2 * len)) len t).
  set (i := (b * (2 * len) + t)%nat) in *.
  assert (S0 : eqq (at_ a i * r ^ Z.of_nat t + at_ a (i + len) * (r ^ Z.of_nat len * r ^ Z.of_nat t))
                   ((at_ a i + side len p * z * at_ a (i + len)) * r ^ Z.of_nat t)).
  { rewrite Z.mul_add_distr_r. apply eqq_add; [apply eqq_refl|].
    replace (side len p * z * at_ a (i + len) * r ^ Z.of_nat t)
      with (at_ a (i + len) * (side len p * z * r ^ Z.of_nat t)) by ring.
    apply eqq_mul; [apply eqq_refl|]. apply eqq_mul; [exact Rp|apply eqq_refl]. }
  eapply eqq_trans; [exact S0|]. apply eqq_mul; [|apply eqq_refl].
  unfold side. destruct (p mod (2 * len) <? len)%nat.
  - fold i. rewrite Z.mul_1_l. apply eqq_sym. exact R1.
  - rewrite (Nat.add_shuffle0 (b * (2 * len)) len t). fold i.
    replace (at_ a i + -1 * z * at_ a (i + len)) with (at_ a i - z * at_ a (i + len)) by ring.
    apply eqq_sym. exact R2.
Qed.

(** Evaluation of the polynomial with coefficients [a] at [root p]. *)
Definition ev (p : nat) (a : poly) : Z := nsum 256 (fun i => at_ a i * root p ^ Z.of_nat i).

Lemma chain_ev : forall a v p, (p < 256)%nat -> chain fwd_rel lens_fwd a v -> eqq (at_ v p) (ev p a).
Proof.
  intros a v p Hp C. unfold lens_fwd in C. cbn [chain] in C.
  destruct C as (a1 & R1 & a2 & R2 & a3 & R3 & a4 & R4 & a5 & R5 & a6 & R6 & a7 & R7 & a8 & R8 & <-).
  assert (E0 : ev p a = part 256 p a).
  { unfold ev, part. rewrite (Nat.div_small p 256) by exact Hp. reflexivity. }
  assert (E8 : part 1 p a8 = at_ a8 p).
  { unfold part, nsum. cbn [zsum]. change (Z.to_nat (Z.of_nat 0)) with 0%nat. rewrite Nat.div_1_r.
    rewrite Nat.mul_1_r, Nat.add_0_r. cbn. lia. }
  rewrite E0, <- E8. apply eqq_sym.
  eapply eqq_trans; [apply (part_step 128 p a a1); [cbn; tauto|exact Hp|exact R1]|].
  eapply eqq_trans; [apply (part_step 64 p a1 a2); [cbn; tauto|exact Hp|exact R2]|].
  eapply eqq_trans; [apply (part_step 32 p a2 a3); [cbn; tauto|exact Hp|exact R3]|].
  eapply eqq_trans; [apply (part_step 16 p a3 a4); [cbn; tauto|exact Hp|exact R4]|].
  eapply eqq_trans; [apply (part_step 8 p a4 a5); [cbn; tauto|exact Hp|exact R5]|].
  eapply eqq_trans; [apply (part_step 4 p a5 a6); [cbn; tauto|exact Hp|exact R6]|].
  eapply eqq_trans; [apply (part_step 2 p a6 a7); [cbn; tauto|exact Hp|exact R7]|].
  apply (part_step 1 p a7 a8); [cbn; tauto|exact Hp|exact R8].
Qed.

(** ** The two transforms undo each other, up to the factor 256 *)
Definition peq (c : Z) (u v : poly) : Prop := forall p, (p < 256)%nat -> eqq (at_ u p) (c * at_ v p).

Lemma inv_of_fwd : forall len c x y u u', In len lens_fwd -> fwd_rel len x y -> peq c u y -> inv_rel len u u' ->
  peq (2 * c) u' x.
Proof.
  intros len c x y u u' Hl F Hu I p Hp.
  destruct (index_split len p Hl Hp) as (b & t & Hb & Ht & Hpp).
  destruct (F b t Hb Ht) as [F1 F2]. destruct (I b t Hb Ht) as [I1 I2]. cbn zeta in *.
  pose proof (inv_twiddles len b Hl Hb) as T.
  set (i := (b * (2 * len) + t)%nat) in *.
  assert (Bi : (i < 256)%nat) by (apply block_bound; auto; lia).
  assert (Bj : (i + len < 256)%nat) by (unfold i; rewrite <- Nat.add_assoc; apply block_bound; auto; lia).
  pose proof (Hu i Bi) as Ui. pose proof (Hu _ Bj) as Uj.
  set (z := zr (at_ zetas (128 / len + b))) in *. set (z' := zr (- at_ zetas (256 / len - 1 - b))) in *.
  destruct F1 as [k1 F1], F2 as [k2 F2], Ui as [k3 Ui], Uj as [k4 Uj], T as [k5 T].
  destruct Hpp as [-> | ->].
  - eapply eqq_trans; [exact I1|]. rewrite Ui, Uj, F1, F2. exists (c * k1 + c * k2 + k3 + k4). ring.
  - eapply eqq_trans; [exact I2|]. rewrite Ui, Uj, F1, F2.
    exists (z' * (c * k1 - c * k2 + k3 - k4) + 2 * c * at_ x (i + len) * k5).
    replace (z' * (c * (at_ x i + z * at_ x (i + len) + k1 * Q) + k3 * Q -
       (c * (at_ x i - z * at_ x (i + len) + k2 * Q) + k4 * Q)))
      with (2 * c * at_ x (i + len) * (z * z') + z' * (c * k1 - c * k2 + k3 - k4) * Q) by ring.
    rewrite T. ring.
Qed.
Lemma fwd_of_inv : forall len c x y u u', In len lens_fwd -> inv_rel len x y -> peq c u y -> fwd_rel len u u' ->
  peq (2 * c) u' x.
Proof.
  intros len c x y u u' Hl F Hu I p Hp.
  destruct (index_split len p Hl Hp) as (b & t & Hb & Ht & Hpp).
  destruct (F b t Hb Ht) as [F1 F2]. destruct (I b t Hb Ht) as [I1 I2]. cbn zeta in *.
  pose proof (inv_twiddles len b Hl Hb) as T.
  set (i := (b * (2 * len) + t)%nat) in *.
  assert (Bi : (i < 256)%nat) by (apply block_bound; auto; lia).
  assert (Bj : (i + len < 256)%nat) by (unfold i; rewrite <- Nat.add_assoc; apply block_bound; auto; lia).
  pose proof (Hu i Bi) as Ui. pose proof (Hu _ Bj) as Uj.
  set (z := zr (at_ zetas (128 / len + b))) in *. set (z' := zr (- at_ zetas (256 / len - 1 - b))) in *.
  destruct F1 as [k1 F1], F2 as [k2 F2], Ui as [k3 Ui], Uj as [k4 Uj], T as [k5 T].
  set (xi := at_ x i) in *. set (xj := at_ x (i + len)) in *.
  destruct Hpp as [-> | ->].
  - eapply eqq_trans; [exact I1|]. rewrite Ui, Uj, F1, F2. fold xi.
    exists (c * k1 + k3 + z * (c * k2 + k4) + c * (xi - xj) * k5).
    replace (c * (xi + xj + k1 * Q) + k3 * Q + z * (c * (z' * (xi - xj) + k2 * Q) + k4 * Q))
      with (c * (xi + xj) + (c * k1 + k3 + z * (c * k2 + k4)) * Q + c * (xi - xj) * (z * z')) by ring.
    rewrite T. ring.
  - eapply eqq_trans; [exact I2|]. rewrite Ui, Uj, F1, F2. fold xj.
    exists (c * k1 + k3 - z * (c * k2 + k4) - c * (xi - xj) * k5).
    replace (c * (xi + xj + k1 * Q) + k3 * Q - z * (c * (z' * (xi - xj) + k2 * Q) + k4 * Q))
      with (c * (xi + xj) + (c * k1 + k3 - z * (c * k2 + k4)) * Q - c * (xi - xj) * (z * z')) by ring.
    rewrite T. ring.
Qed.

Lemma inv_fwd_chain : forall c a v u w, chain fwd_rel lens_fwd a v -> peq c u v -> chain inv_rel lens_inv u w ->
  peq (256 * c) w a.
Proof.
  intros c a v u w F Hu I. unfold lens_fwd, lens_inv in *. cbn [chain] in *.
  destruct F as (a1 & R1 & a2 & R2 & a3 & R3 & a4 & R4 & a5 & R5 & a6 & R6 & a7 & R7 & a8 & R8 & <-).
  destruct I as (u1 & S1 & u2 & S2 & u3 & S3 & u4 & S4 & u5 & S5 & u6 & S6 & u7 & S7 & u8 & S8 & <-).
  assert (E1 : peq (2 * c) u1 a7) by (eapply inv_of_fwd with (len := 1%nat); eauto; cbn; tauto).
  assert (E2 : peq (2 * (2 * c)) u2 a6) by (eapply inv_of_fwd with (len := 2%nat); eauto; cbn; tauto).
  assert (E3 : peq (2 * (2 * (2 * c))) u3 a5) by (eapply inv_of_fwd with (len := 4%nat); eauto; cbn; tauto).
  assert (E4 : peq (2 * (2 * (2 * (2 * c)))) u4 a4) by (eapply inv_of_fwd with (len := 8%nat); eauto; cbn; tauto).
  assert (E5 : peq (2 * (2 * (2 * (2 * (2 * c))))) u5 a3) by (eapply inv_of_fwd with (len := 16%nat); eauto; cbn; tauto).
  assert (E6 : peq (2 * (2 * (2 * (2 * (2 * (2 * c)))))) u6 a2) by (eapply inv_of_fwd with (len := 32%nat); eauto; cbn; tauto).
  assert (E7 : peq (2 * (2 * (2 * (2 * (2 * (2 * (2 * c))))))) u7 a1) by (eapply inv_of_fwd with (len := 64%nat); eauto; cbn; tauto).
  assert (E8 : peq (2 * (2 * (2 * (2 * (2 * (2 * (2 * (2 * c)))))))) u8 a) by (eapply inv_of_fwd with (len := 128%nat); eauto; cbn; tauto).
  replace (256 * c) with (2 * (2 * (2 * (2 * (2 * (2 * (2 * (2 * c)))))))) by ring. exact E8.
Qed.
Lemma fwd_inv_chain : forall c a v u w, chain inv_rel lens_inv a v -> peq c u v -> chain fwd_rel lens_fwd u w ->
  peq (256 * c) w a.
Proof.
  intros c a v u w F Hu I. unfold lens_fwd, lens_inv in *. cbn [chain] in *.
  destruct F as (a1 & R1 & a2 & R2 & a3 & R3 & a4 & R4 & a5 & R5 & a6 & R6 & a7 & R7 & a8 & R8 & <-).
  destruct I as (u1 & S1 & u2 & S2 & u3 & S3 & u4 & S4 & u5 & S5 & u6 & S6 & u7 & S7 & u8 & S8 & <-).
  assert (E1 : peq (2 * c) u1 a7) by (eapply fwd_of_inv with (len := 128%nat); eauto; cbn; tauto).
  assert (E2 : peq (2 * (2 * c)) u2 a6) by (eapply fwd_of_inv with (len := 64%nat); eauto; cbn; tauto).
  assert (E3 : peq (2 * (2 * (2 * c))) u3 a5) by (eapply fwd_of_inv with (len := 32%nat); eauto; cbn; tauto).
  assert (E4 : peq (2 * (2 * (2 * (2 * c)))) u4 a4) by (eapply fwd_of_inv with (len := 16%nat); eauto; cbn; tauto).
  assert (E5 : peq (2 * (2 * (2 * (2 * (2 * c))))) u5 a3) by (eapply fwd_of_inv with (len := 8%nat); eauto; cbn; tauto).
  assert (E6 : peq (2 * (2 * (2 * (2 * (2 * (2 * c)))))) u6 a2) by (eapply fwd_of_inv with (len := 4%nat); eauto; cbn; tauto).
  assert (E7 : peq (2 * (2 * (2 * (2 * (2 * (2 * (2 * c))))))) u7 a1) by (eapply fwd_of_inv with (len := 2%nat); eauto; cbn; tauto).
  assert (E8 : peq (2 * (2 * (2 * (2 * (2 * (2 * (2 * (2 * c)))))))) u8 a) by (eapply fwd_of_inv with (len := 1%nat); eauto; cbn; tauto).
  replace (256 * c) with (2 * (2 * (2 * (2 * (2 * (2 * (2 * (2 * c)))))))) by ring. exact E8.
Qed.
