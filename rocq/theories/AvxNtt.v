(** * AvxNtt: ntt.S is the reference transform followed by the permutation of shuffle.S;
    invntt.S undoes both and returns the reference result modulo q. *)
From Coq Require Import ZArith List Lia Bool.
From Verif Require Import Base Bits SaberPoly Ring SaberRing DilArith DilNtt DilNttProof DilNttEval DilNttSpec DilPoly DilOps
  AvxMachine AvxSym AvxSymOk.
Import ListNotations.
Open Scope Z_scope.

(** ** The layers of the reference transforms, exactly *)
Definition lenf (k : nat) : nat := nth k lens_fwd 0%nat.
Definition leni (k : nat) : nat := nth k lens_inv 0%nat.

Lemma fwd_layer_exact : forall len a B, In len lens_fwd -> length a = 256%nat -> bnd B a -> B + Q < 2147483648 ->
  exists a', fwd_layer ((128 / len - 1)%nat, a) len = CRet ((2 * (128 / len) - 1)%nat, a') /\
    length a' = 256%nat /\ bnd (B + Q) a' /\ layer_rel fwd_step (fun b => at_ zetas (128 / len + b)) len a a'.
Proof.
  intros len a B Hl La Ha HB. destruct (fwd_layer_ok len a B Hl La Ha HB) as (a' & E & L & Bd & _).
  exists a'. split; [exact E|]. split; [exact L|]. split; [exact Bd|].
  unfold fwd_layer, starts in E. rewrite fwd_layer_triples in E.
  assert (P : (0 < 128 / len)%nat) by (destruct (len_div len Hl); nia).
  set (zf := fun b => at_ zetas (128 / len - 1 + 1 + b - 0)) in E.
  assert (Hzf : forall b, zf b = at_ zetas (128 / len + b)) by (intro b; unfold zf; f_equal; lia).
  destruct (layer_pass fwd_step zf len a Hl La) as (a2 & E2 & _ & R).
  { intros b t Hb Ht. apply (fwd_step_ok _ _ _ B); auto.
    - unfold zf. apply zetas_bound.
    - apply Ha. apply block_bound; auto; lia.
    - apply Ha. rewrite <- Nat.add_assoc. apply block_bound; auto; lia. }
  rewrite E2 in E. cbn [cbind] in E. assert (a2 = a') as <- by congruence.
  intros b t Hb Ht. cbn zeta. rewrite <- Hzf. apply R; assumption.
Qed.
Lemma inv_layer_exact : forall len a B, In len lens_fwd -> length a = 256%nat -> bnd B a -> Q <= B -> 2 * B < 2147483648 ->
  exists a', inv_layer ((256 / len)%nat, a) len = CRet ((256 / len - 128 / len)%nat, a') /\
    length a' = 256%nat /\ bnd (2 * B) a' /\ layer_rel inv_step (fun b => - at_ zetas (256 / len - 1 - b)) len a a'.
Proof.
  intros len a B Hl La Ha HQ HB. destruct (inv_layer_ok len a B Hl La Ha HQ HB) as (a' & E & L & Bd & _).
  exists a'. split; [exact E|]. split; [exact L|]. split; [exact Bd|].
  unfold inv_layer, starts in E.
  assert (P : (128 / len <= 256 / len)%nat) by (destruct (len_div len Hl); apply Nat.div_le_mono; lia).
  rewrite inv_layer_triples in E by exact P.
  set (zf := fun b => - at_ zetas (256 / len - 1 - (b - 0))) in E.
  assert (Hzf : forall b, zf b = - at_ zetas (256 / len - 1 - b)) by (intro b; unfold zf; do 2 f_equal; lia).
  destruct (layer_pass inv_step zf len a Hl La) as (a2 & E2 & _ & R).
  { intros b t Hb Ht. apply (inv_step_ok _ _ _ B); auto.
    - pose proof (zetas_bound (256 / len - 1 - (b - 0))). unfold zf. lia.
    - apply Ha. apply block_bound; auto; lia.
    - apply Ha. rewrite <- Nat.add_assoc. apply block_bound; auto; lia. }
  rewrite E2 in E. cbn [cbind] in E. assert (a2 = a') as <- by congruence.
  intros b t Hb Ht. cbn zeta. rewrite <- Hzf. apply R; assumption.
Qed.

(** All nine arrays of the forward transform. *)
Definition fwd_arrays (a : poly) (B : Z) (P : nat -> poly) : Prop :=
  P 0%nat = a /\ ntt a = CRet (P 8%nat) /\
  (forall k, (k < 8)%nat -> layer_rel fwd_step (fun b => at_ zetas (128 / lenf k + b)) (lenf k) (P k) (P (S k))) /\
  length (P 8%nat) = 256%nat /\ bnd (B + 8 * Q) (P 8%nat).
Lemma below8 : forall (P : nat -> Prop), P 0%nat -> P 1%nat -> P 2%nat -> P 3%nat -> P 4%nat -> P 5%nat -> P 6%nat -> P 7%nat ->
  forall k, (k < 8)%nat -> P k.
Proof. intros P. intros. do 8 (destruct k as [|k]; [assumption|]). lia. Qed.
Lemma fwd_arrays_exist : forall a B, length a = 256%nat -> bnd B a -> B + 8 * Q < 2147483648 -> exists P, fwd_arrays a B P.
Proof.
  intros a B L H HB. unfold fwd_arrays, ntt, lens_fwd. cbn [foldM].
  assert (QP : 0 < Q) by reflexivity.
  Ltac stepf2 len a B L H k :=
    let a' := fresh "a" in let E := fresh "E" in let L' := fresh "L" in let H' := fresh "H" in let R := fresh "R" in
    destruct (fwd_layer_exact len a B) as (a' & E & L' & H' & R);
      [cbn; tauto|exact L|exact H|lia|];
    let k1 := eval vm_compute in (128 / len - 1)%nat in
    let k2 := eval vm_compute in (2 * (128 / len) - 1)%nat in
    change (128 / len - 1)%nat with k1 in E; change (2 * (128 / len) - 1)%nat with k2 in E;
    rewrite E; cbn [cbind]; clear E; k a' L' H' R.
  stepf2 128%nat a B L H ltac:(fun a1 L1 H1 R1 =>
  stepf2 64%nat a1 (B + Q) L1 H1 ltac:(fun a2 L2 H2 R2 =>
  stepf2 32%nat a2 (B + Q + Q) L2 H2 ltac:(fun a3 L3 H3 R3 =>
  stepf2 16%nat a3 (B + Q + Q + Q) L3 H3 ltac:(fun a4 L4 H4 R4 =>
  stepf2 8%nat a4 (B + Q + Q + Q + Q) L4 H4 ltac:(fun a5 L5 H5 R5 =>
  stepf2 4%nat a5 (B + Q + Q + Q + Q + Q) L5 H5 ltac:(fun a6 L6 H6 R6 =>
  stepf2 2%nat a6 (B + Q + Q + Q + Q + Q + Q) L6 H6 ltac:(fun a7 L7 H7 R7 =>
  stepf2 1%nat a7 (B + Q + Q + Q + Q + Q + Q + Q) L7 H7 ltac:(fun a8 L8 H8 R8 =>
    exists (fun k => nth k [a; a1; a2; a3; a4; a5; a6; a7; a8] []); cbn [nth];
    split; [reflexivity|]; split; [reflexivity|]; split;
    [ apply below8; cbn [nth]; assumption
    | split; [exact L8|intros p Hp; specialize (H8 p Hp); lia] ])))))))).
Qed.
(** All nine arrays of the inverse transform. *)
Definition inv_arrays (a : poly) (P : nat -> poly) : Prop :=
  P 0%nat = a /\ foldM inv_layer lens_inv (256%nat, a) = CRet (1%nat, P 8%nat) /\
  (forall k, (k < 8)%nat -> layer_rel inv_step (fun b => - at_ zetas (256 / leni k - 1 - b)) (leni k) (P k) (P (S k))) /\
  (forall k, (k < 8)%nat -> bnd (128 * Q) (P k)) /\ length (P 8%nat) = 256%nat /\ bnd (256 * Q) (P 8%nat).
Lemma inv_arrays_exist : forall a, length a = 256%nat -> bnd Q a -> exists P, inv_arrays a P.
Proof.
  intros a L H. unfold inv_arrays, lens_inv. cbn [foldM].
  assert (QP : Q = 8380417) by reflexivity.
  Ltac stepi2 len a B L H k :=
    let a' := fresh "a" in let E := fresh "E" in let L' := fresh "L" in let H' := fresh "H" in let R := fresh "R" in
    destruct (inv_layer_exact len a B) as (a' & E & L' & H' & R);
      [cbn; tauto|exact L|exact H|lia|lia|];
    let k1 := eval vm_compute in (256 / len)%nat in
    let k2 := eval vm_compute in (256 / len - 128 / len)%nat in
    change (256 / len - 128 / len)%nat with k2 in E; change (256 / len)%nat with k1 in E;
    rewrite E; cbn [cbind]; clear E; k a' L' H' R.
  assert (BM : forall B x, B <= 128 * Q -> bnd B x -> bnd (128 * Q) x).
  { intros B x HB Hx p Hp. specialize (Hx p Hp). lia. }
  stepi2 1%nat a Q L H ltac:(fun a1 L1 H1 R1 =>
  stepi2 2%nat a1 (2 * Q) L1 H1 ltac:(fun a2 L2 H2 R2 =>
  stepi2 4%nat a2 (2 * (2 * Q)) L2 H2 ltac:(fun a3 L3 H3 R3 =>
  stepi2 8%nat a3 (2 * (2 * (2 * Q))) L3 H3 ltac:(fun a4 L4 H4 R4 =>
  stepi2 16%nat a4 (2 * (2 * (2 * (2 * Q)))) L4 H4 ltac:(fun a5 L5 H5 R5 =>
  stepi2 32%nat a5 (2 * (2 * (2 * (2 * (2 * Q))))) L5 H5 ltac:(fun a6 L6 H6 R6 =>
  stepi2 64%nat a6 (2 * (2 * (2 * (2 * (2 * (2 * Q)))))) L6 H6 ltac:(fun a7 L7 H7 R7 =>
  stepi2 128%nat a7 (2 * (2 * (2 * (2 * (2 * (2 * (2 * Q))))))) L7 H7 ltac:(fun a8 L8 H8 R8 =>
    exists (fun k => nth k [a; a1; a2; a3; a4; a5; a6; a7; a8] []); cbn [nth];
    split; [reflexivity|]; split; [reflexivity|]; split;
    [ apply below8; cbn [nth]; assumption
    | split; [apply below8; cbn [nth]; (eapply BM; [|eassumption]; lia)
    | split; [exact L8|intros p Hp; specialize (H8 p Hp); lia] ] ])))))))).
Qed.

(** A layer at an integer index. *)
Lemma layer_rel_Z : forall f zf len a a', In len lens_fwd -> layer_rel f zf len a a' ->
  forall j, block_of (Z.of_nat len) j ->
  f (zf (Z.to_nat (j / (2 * Z.of_nat len)))) (at_ a (Z.to_nat j)) (at_ a (Z.to_nat (j + Z.of_nat len))) =
    CRet (at_ a' (Z.to_nat j), at_ a' (Z.to_nat (j + Z.of_nat len))).
Proof.
  intros f zf len a a' Hl R j [Hj Hm]. destruct (len_div len Hl) as [D P].
  pose proof (Z.div_mod j (2 * Z.of_nat len) ltac:(lia)) as E.
  pose proof (Z.mod_pos_bound j (2 * Z.of_nat len) ltac:(lia)) as M.
  set (b := j / (2 * Z.of_nat len)) in *. set (t := j mod (2 * Z.of_nat len)) in *.
  assert (Hb : 0 <= b) by nia. assert (Hb2 : (Z.to_nat b < 128 / len)%nat) by nia.
  specialize (R (Z.to_nat b) (Z.to_nat t) Hb2 ltac:(lia)). cbn zeta in R.
  replace (Z.to_nat b * (2 * len) + Z.to_nat t)%nat with (Z.to_nat j) in R by nia.
  replace (Z.to_nat (j + Z.of_nat len)) with (Z.to_nat j + len)%nat by lia. exact R.
Qed.

(** ** The environment of a symbolic run *)
Definition env_of (F G : nat -> poly) : env :=
  let ei := fun k j => at_ (G k) (Z.to_nat j) in
  {| ef := fun k j => at_ (F k) (Z.to_nat j); ei := ei;
     ee := fun j => if j <? 128 then mred (F_INV * ei 8%nat j) else mred (ZLAST * (ei 7%nat j - ei 7%nat (j - 128))) |}.
Lemma env_of_ok : forall a c B F G, fwd_arrays a B F -> inv_arrays c G -> env_ok (env_of F G).
Proof.
  intros a c B F G (_ & _ & HF & _) (_ & _ & HG & BG & _). split; [|split; [|split]].
  - intros k j Hk Bk. cbn [env_of ef]. 
    assert (In (lenf k) lens_fwd) as Hl by (clear - Hk; revert k Hk; apply below8; cbn; tauto).
    assert (flen k = Z.of_nat (lenf k)) as El by (clear - Hk; revert k Hk; apply below8; reflexivity).
    specialize (HF k Hk). rewrite El in *. pose proof (layer_rel_Z _ _ _ _ _ Hl HF j Bk) as H. cbv beta in H.
    rewrite <- H. unfold zeta, at_. do 2 f_equal.
    rewrite Z2Nat.inj_add by (try apply Z.div_pos; destruct Bk; destruct (len_div _ Hl); lia).
    f_equal. rewrite <- (Nat2Z.id (128 / lenf k)). f_equal. rewrite Nat2Z.inj_div. reflexivity.
  - intros k j Hk Bk. cbn [env_of ei]. 
    assert (In (leni k) lens_fwd) as Hl by (clear - Hk; revert k Hk; apply below8; cbn; tauto).
    assert (ilen k = Z.of_nat (leni k)) as El by (clear - Hk; revert k Hk; apply below8; reflexivity).
    specialize (HG k Hk). rewrite El in *. pose proof (layer_rel_Z _ _ _ _ _ Hl HG j Bk) as H. cbv beta in H. split.
    + rewrite <- H. unfold zeta, at_. do 3 f_equal.
      rewrite !Z2Nat.inj_sub by (try apply Z.div_pos; destruct Bk; destruct (len_div _ Hl); lia).
      f_equal. f_equal. rewrite <- (Nat2Z.id (256 / leni k)). f_equal. rewrite Nat2Z.inj_div. reflexivity.
    + assert (J : (Z.to_nat j < 256)%nat /\ (Z.to_nat (j + Z.of_nat (leni k)) < 256)%nat).
      { destruct Bk as [B1 B2]. destruct (len_div _ Hl) as [D P].
        pose proof (Z.div_mod j (2 * Z.of_nat (leni k)) ltac:(lia)) as E.
        pose proof (Z.mod_pos_bound j (2 * Z.of_nat (leni k)) ltac:(lia)) as M.
        assert (0 <= j / (2 * Z.of_nat (leni k)) < Z.of_nat (128 / leni k)) by nia. nia. }
      destruct J as [J1 J2]. pose proof (BG k Hk _ J1). pose proof (BG k Hk _ J2). unfold Q in *. lia.
  - intros j Hj. cbn [env_of ee ei]. destruct (Z.ltb_spec j 128); [reflexivity|lia].
  - intros j Hj. cbn [env_of ee ei]. destruct (Z.ltb_spec (j + 128) 128); [lia|].
    replace (j + 128 - 128) with j by lia. reflexivity.
Qed.

(** ** The runs *)
Lemma ntt_srun : srun ntt_prog (map (fun j => SA (AF 0 j)) indices) = map (fun j => SA (AF 8 j)) tau.
Proof. vm_compute. reflexivity. Qed.
Lemma invntt_srun : srun invntt_prog (map (fun j => SA (AI 0 j)) tau) = map (fun j => SA (AE j)) indices.
Proof. vm_compute. reflexivity. Qed.
Lemma sregs_R : forall E R, regs_ok R -> Forall2 (Forall2 (srel E)) sregs R.
Proof.
  intros E R [L F]. unfold sregs. rewrite Forall_forall in F. apply F2_repeat; [exact L|]. intros v Hv.
  apply F2_repeat; [apply F; exact Hv|]. intros y _. exact Logic.I.
Qed.
Lemma F2_map : forall {A B C} (R : B -> C -> Prop) (f : A -> B) (g : A -> C) l,
  (forall x, In x l -> R (f x) (g x)) -> Forall2 R (map f l) (map g l).
Proof. induction l as [|x l IH]; intro H; cbn; constructor; [apply H; left; reflexivity|]. apply IH. intros y Hy. apply H. right. exact Hy. Qed.
Lemma F2_map_inv : forall {A} E (at' : A -> atom) l v, Forall2 (srel E) (map (fun x => SA (at' x)) l) v ->
  v = map (fun x => den E (at' x)) l.
Proof.
  induction l as [|x l IH]; intros v H; cbn in H; inversion H; subst; [reflexivity|]. cbn. f_equal; [assumption|]. apply IH. assumption.
Qed.
Lemma indices_poly : forall a, length a = 256%nat -> a = map (fun j => at_ a (Z.to_nat j)) indices.
Proof.
  intros a L. unfold indices. rewrite map_map. apply nth_ext with (d := 0) (d' := 0).
  - rewrite map_length, seq_length. exact L.
  - intros n Hn. rewrite L in Hn. pose proof (nth_map_seq (fun i => at_ a (Z.to_nat (Z.of_nat i))) 256 n Hn) as H.
    unfold at_ at 1 in H. rewrite H. rewrite Nat2Z.id. reflexivity.
Qed.

(** [poly] functions over the assembly (poly.c 138-165, 77-92 call them on the array). *)
Definition ntt_avx (R : list (list Z)) (a : poly) : poly := call ntt_prog R a.
Definition invntt_avx (R : list (list Z)) (a : poly) : poly := call invntt_prog R a.
Definition nttunpack_avx (R : list (list Z)) (a : poly) : poly := call nttunpack_prog R a.
(** The permutation shuffle.S applies. *)
Definition unpacked (a : poly) : poly := map (fun j => at_ a (Z.to_nat j)) tau.

Lemma tau_range : Forall (fun j => 0 <= j < 256) tau.
Proof.
  assert (H : forallb (fun j => (0 <=? j) && (j <? 256)) tau = true) by (vm_compute; reflexivity).
  rewrite forallb_forall in H. apply Forall_forall. intros j Hj. specialize (H j Hj). apply andb_true_iff in H.
  destruct H as [H1 H2]. apply Z.leb_le in H1. apply Z.ltb_lt in H2. lia.
Qed.
Lemma tau_length : length tau = 256%nat. Proof. vm_compute. reflexivity. Qed.
Theorem nttunpack_ok : forall R a, regs_ok R -> length a = 256%nat -> nttunpack_avx R a = unpacked a.
Proof.
  intros R a HR L.
  set (rel := fun (i v : Z) => 0 <= i -> v = at_ a (Z.to_nat i)).
  assert (H : Forall2 rel tau (nttunpack_avx R a)).
  { unfold tau, nttunpack_avx, call. apply (call_R ilane zlane rel); unfold R2, rel; cbn [ilane l_const l_mul l_add l_sub l_addq l_subq fst snd]; try lia.
    - destruct HR as [LR FR]. rewrite Forall_forall in FR. apply F2_repeat; [exact LR|]. intros v Hv.
      apply F2_repeat; [apply FR; exact Hv|]. intros y _. lia.
    - refine (eq_ind_r (fun b => Forall2 _ indices b) _ (indices_poly a L)). rewrite <- (map_id indices) at 1. apply F2_map. intros x _ _. rewrite <- (indices_poly a L). reflexivity. }
  pose proof tau_range as T. revert H T. generalize (nttunpack_avx R a). unfold unpacked. clear.
  induction tau as [|j t IH]; intros v H T; cbn in *; inversion H; subst; [reflexivity|]. inversion T; subst.
  f_equal; [|apply IH; assumption]. apply H2. lia.
Qed.

(** ntt.S: the reference transform, permuted. *)
Theorem ntt_avx_ok : forall R a B, regs_ok R -> length a = 256%nat -> bnd B a -> B + 8 * Q < 2147483648 ->
  exists v, ntt a = CRet v /\ ntt_avx R a = unpacked v.
Proof.
  intros R a B HR L H HB. destruct (fwd_arrays_exist a B L H HB) as (F & HF).
  set (z := repeat 0 256).
  assert (Lz : length z = 256%nat) by reflexivity.
  assert (Bz : bnd Q z). { intros p Hp. unfold z, at_. rewrite nth_repeat. unfold Q. lia. }
  destruct (inv_arrays_exist z Lz Bz) as (G & HG).
  pose proof (env_of_ok a z B F G HF HG) as OK. destruct HF as (F0 & F8 & _). exists (F 8%nat). split; [exact F8|].
  pose proof (sym_call (env_of F G) OK ntt_prog R a (map (fun j => SA (AF 0 j)) indices) (sregs_R _ R HR)) as C.
  rewrite ntt_srun in C. apply (F2_map_inv (env_of F G) (AF 8)) in C.
  - exact C.
  - rewrite (indices_poly a L) at 1. apply F2_map. intros j _. cbn [srel den env_of ef]. rewrite F0. reflexivity.
Qed.

(** invntt.S on a permuted array: the reference inverse modulo q, between -q and q. *)
Lemma mred_ok : forall x y, in32 x -> - Q < y < Q -> - Q < mred (y * x) < Q /\ eqq (mred (y * x) * 4294967296) (y * x).
Proof.
  intros x y Hx Hy. rewrite Z.mul_comm. destruct (montgomery_product x y Hx Hy) as (r & E & Hr & C).
  apply mred_spec in E. subst r. auto.
Qed.
(** A tighter bound for small factors, as those of the last layer are. *)
Definition INVA : Z := 6178067.
Lemma mred_tight : forall x y, in32 x -> - 3975713 <= y <= 3975713 -> - INVA < mred (y * x) < INVA.
Proof.
  intros x y Hx Hy. unfold mred. pose proof (i32_range (y * x * QINV)) as T. set (t := i32 (y * x * QINV)) in *. clearbody t. unfold in32, INVA in *.
  assert (B : - (2147483648 * 3975713) <= y * x <= 2147483648 * 3975713) by nia.
  rewrite Z.shiftr_div_pow2 by lia. change (2 ^ 32) with 4294967296. set (d := (y * x - t * Q) / 4294967296).
  assert (D : -6178066 <= d <= 6178066).
  { unfold d. split; [apply Z.div_le_lower_bound|apply Z.lt_succ_r, Z.div_lt_upper_bound]; unfold Q; lia. }
  rewrite i32_id by (unfold in32; lia). lia.
Qed.
Theorem invntt_avx_tight : forall R u, regs_ok R -> length u = 256%nat -> bnd Q u ->
  exists c, invntt_tomont u = CRet c /\ length (invntt_avx R (unpacked u)) = 256%nat /\
    (forall p, (p < 256)%nat -> - INVA < at_ (invntt_avx R (unpacked u)) p < INVA /\ eqq (at_ (invntt_avx R (unpacked u)) p) (at_ c p)).
Proof.
  intros R u HR L H. destruct (inv_arrays_exist u L H) as (G & HG).
  set (z := repeat 0 256).
  assert (Lz : length z = 256%nat) by reflexivity.
  assert (Bz : bnd Q z). { intros p Hp. unfold z, at_. rewrite nth_repeat. unfold Q. lia. }
  destruct (fwd_arrays_exist z Q Lz Bz) as (F & HF); [unfold Q; lia|].
  pose proof (env_of_ok z u Q F G HF HG) as OK.
  destruct HG as (G0 & G8 & GL & GB & LG & BG).
  pose proof (sym_call (env_of F G) OK invntt_prog R (unpacked u) (map (fun j => SA (AI 0 j)) tau) (sregs_R _ R HR)) as C.
  rewrite invntt_srun in C.
  assert (C' : invntt_avx R (unpacked u) = map (fun j => ee (env_of F G) j) indices).
  { apply (F2_map_inv (env_of F G) AE) in C; [exact C|]. unfold unpacked. apply F2_map. intros j _.
    cbn [srel den env_of ei]. rewrite G0. reflexivity. }
  clear C. rewrite C'.
  destruct (mapM_ok (fun x => montgomery_reduce (F_INV * x))
     (fun x r => r = mred (F_INV * x) /\ eqq (r * 4294967296) (F_INV * x)) (G 8%nat)) as (c & Ec & Lc & Pc).
  { intros x Hx. destruct (in_at _ x Hx) as (p & Hp & ->). rewrite LG in Hp.
    specialize (BG p Hp). destruct (f_inv_ok (at_ (G 8%nat) p)) as (r & Er & _ & Cr); [unfold in32, Q in *; lia|].
    exists r. split; [exact Er|]. split; [apply mred_spec; exact Er|exact Cr]. }
  rewrite LG in *. exists c. split; [unfold invntt_tomont; rewrite G8; exact Ec|].
  split; [unfold indices; rewrite !map_length, seq_length; reflexivity|]. intros p Hp.
  assert (A : at_ (map (fun j => ee (env_of F G) j) indices) p = ee (env_of F G) (Z.of_nat p)).
  { unfold indices. rewrite map_map. apply (nth_map_seq (fun i => ee (env_of F G) (Z.of_nat i))). exact Hp. }
  rewrite A. clear A C'. cbn [env_of ee]. rewrite Nat2Z.id.
  destruct (Pc p Hp) as [P1 P2].
  destruct (Z.ltb_spec (Z.of_nat p) 128) as [Lt|Ge].
  - rewrite P1. split; [|apply eqq_refl]. apply mred_tight; [specialize (BG p Hp); unfold in32, Q in *; lia|unfold F_INV, Q; lia].
  - (* the upper half: the scaling is merged into the twiddle factor *)
    set (q := (p - 128)%nat). assert (Eq : Z.to_nat (Z.of_nat p - 128) = q) by lia. rewrite Eq.
    assert (Hq : (q < 128)%nat) by lia.
    pose proof (GB 7%nat ltac:(lia) p Hp) as B1. pose proof (GB 7%nat ltac:(lia) q ltac:(lia)) as B2.
    destruct (mred_ok (at_ (G 7%nat) p - at_ (G 7%nat) q) ZLAST) as [M1 M2]; [unfold in32, Q in *; lia|unfold ZLAST, Q; lia|].
    split; [apply mred_tight; [unfold in32, Q in *; lia|unfold ZLAST; lia]|]. apply eqq_cancel_R. apply eqq_cancel_R.
    pose proof (GL 7%nat ltac:(lia) 0%nat q ltac:(cbn; lia) ltac:(cbn; lia)) as R7. cbn zeta in R7.
    change (leni 7) with 128%nat in R7. change (0 * (2 * 128) + q)%nat with q in R7.
    replace (q + 128)%nat with p in R7 by lia. change (256 / 128 - 1 - 0)%nat with 1%nat in R7.
    apply inv_step_inv in R7. destruct R7 as (_ & R7 & _ & R8). change (at_ zetas 1) with 25847 in R7.
    destruct (mred_ok (at_ (G 7%nat) q - at_ (G 7%nat) p) (Z.opp 25847) R8) as [_ M3]; [unfold Q; lia|].
    rewrite <- R7 in M3. clear R7 R8 M1 B1 B2.
    destruct M2 as [m M2], P2 as [n P2], M3 as [l M3].
    revert M2 P2 M3. generalize (mred (ZLAST * (at_ (G 7%nat) p - at_ (G 7%nat) q))) (at_ c p) (at_ (G 8%nat) p).
    generalize (at_ (G 7%nat) p) (at_ (G 7%nat) q). intros g7p g7q r x y M2 P2 M3.
    assert (N : ZLAST * 4294967296 = F_INV * 25847 + (-2037554742) * Q) by (unfold ZLAST, F_INV, Q; lia).
    exists (m * 4294967296 + (-2037554742) * (g7p - g7q) - n * 4294967296 - F_INV * l).
    replace (r * 4294967296 * 4294967296) with (ZLAST * 4294967296 * (g7p - g7q) + m * Q * 4294967296) by (rewrite M2; ring).
    rewrite N. rewrite P2. replace ((F_INV * y + n * Q) * 4294967296) with (F_INV * (y * 4294967296) + n * Q * 4294967296) by ring.
    rewrite M3. ring.
Qed.
Theorem invntt_avx_ok : forall R u, regs_ok R -> length u = 256%nat -> bnd Q u ->
  exists c, invntt_tomont u = CRet c /\ length (invntt_avx R (unpacked u)) = 256%nat /\
    (forall p, (p < 256)%nat -> - Q < at_ (invntt_avx R (unpacked u)) p < Q /\ eqq (at_ (invntt_avx R (unpacked u)) p) (at_ c p)).
Proof.
  intros R u HR L H. destruct (invntt_avx_tight R u HR L H) as (c & E & L' & P). exists c. split; [exact E|]. split; [exact L'|].
  intros p Hp. destruct (P p Hp) as [B C]. split; [unfold INVA, Q in *; lia|exact C].
Qed.
