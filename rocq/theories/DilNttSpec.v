(** * DilNttSpec: what callers of ntt.c rely on. *)
From Coq Require Import ZArith List Lia Bool.
From Verif Require Import Base Bits SaberPoly Ring SaberRing DilArith DilNtt DilNttProof DilNttEval.
Import ListNotations.
Open Scope Z_scope.

Lemma mapM_ok : forall (f : Z -> crun Z) (P : Z -> Z -> Prop) l,
  (forall x, In x l -> exists y, f x = CRet y /\ P x y) ->
  exists l', mapM f l = CRet l' /\ length l' = length l /\
    (forall p, (p < length l)%nat -> P (at_ l p) (at_ l' p)).
Proof.
  intros f P. induction l as [|x l IH]; intro H.
  - exists []. cbn. repeat split; auto; intros; lia.
  - destruct (H x (or_introl eq_refl)) as (y & E & Py).
    destruct IH as (l' & El & Ll & Pl); [intros; apply H; right; auto|].
    exists (y :: l'). cbn [mapM]. rewrite E. cbn [cbind]. rewrite El. cbn [cbind length].
    repeat split; [congruence|]. intros [|p] Hp; cbn; [exact Py|]. apply Pl. cbn in Hp. lia.
Qed.
Lemma in_at : forall (l : poly) x, In x l -> exists p, (p < length l)%nat /\ x = at_ l p.
Proof. intros l x H. destruct (In_nth l x 0 H) as (p & Hp & E). exists p. auto. Qed.

Theorem ntt_ok : forall a B, length a = 256%nat -> bnd B a -> B + 8 * Q < 2147483648 ->
  exists v, ntt a = CRet v /\ length v = 256%nat /\ bnd (B + 8 * Q) v /\
    (forall p, (p < 256)%nat -> eqq (at_ v p) (ev p a)).
Proof.
  intros a B L H HB. destruct (ntt_chain a B L H HB) as (v & E & Lv & Hv & C).
  exists v. repeat split; try apply Hv; auto. intros p Hp. apply chain_ev; auto.
Qed.

(** Reduction of every coefficient to [0, Q). *)
Definition red (a : poly) : poly := map (fun x => x mod Q) a.
Lemma red_length : forall a, length (red a) = length a. Proof. intro. apply map_length. Qed.
Lemma red_at : forall a p, at_ (red a) p = at_ a p mod Q.
Proof. intros. unfold red, at_. apply (map_nth (fun x => x mod Q) a 0 p). Qed.
Lemma red_eqq : forall a p, eqq (at_ (red a) p) (at_ a p).
Proof. intros. rewrite red_at. apply eqq_mod. apply Z.mod_mod. discriminate. Qed.
Lemma red_range : forall a p, 0 <= at_ (red a) p < Q.
Proof. intros. rewrite red_at. apply Z.mod_pos_bound. reflexivity. Qed.
Lemma red_bnd : forall a, bnd Q (red a).
Proof. intros a p _. pose proof (red_range a p). lia. Qed.

Lemma ev_eqq : forall a b p, (forall i, (i < 256)%nat -> eqq (at_ a i) (at_ b i)) -> eqq (ev p a) (ev p b).
Proof. intros a b p H. apply nsum_eqq. intros i Hi. apply eqq_mul; [auto|apply eqq_refl]. Qed.

(** A bound on the coefficients returned by the inverse transform. *)
Definition INVB : Z := 4211200.
Lemma f_inv_ok : forall x, in32 x -> exists r, montgomery_reduce (F_INV * x) = CRet r /\
  (- INVB <= r <= INVB /\ eqq (r * 4294967296) (F_INV * x)).
Proof.
  intros x H. rewrite Z.mul_comm. destruct (montgomery_product x F_INV) as (r & E & Hr & C);
    [exact H|unfold F_INV, Q; lia|]. exists r. split; [exact E|]. split; [|exact C].
  apply montgomery_reduce_bound in E; unfold in32, INVB, F_INV, Q in *; lia.
Qed.

(** The inverse transform is defined on every input bounded by Q, and inverts [ev]. *)
Lemma invntt_chain : forall v, length v = 256%nat -> bnd Q v ->
  exists w a, chain inv_rel lens_inv v w /\ invntt_tomont v = CRet a /\ length a = 256%nat /\
    (forall p, (p < 256)%nat -> - INVB <= at_ a p <= INVB /\ eqq (at_ a p * 4294967296) (F_INV * at_ w p)).
Proof.
  intros v L H. destruct (inv_chain v L H) as (w & E & Lw & Hw & C).
  unfold invntt_tomont. rewrite E. cbn [cbind].
  destruct (mapM_ok (fun x => montgomery_reduce (F_INV * x))
     (fun x r => - INVB <= r <= INVB /\ eqq (r * 4294967296) (F_INV * x)) w) as (a & Ea & La & Pa).
  { intros x Hx. apply f_inv_ok. destruct (in_at w x Hx) as (p & Hp & ->). rewrite Lw in Hp.
    specialize (Hw p Hp). unfold in32, Q in *. lia. }
  exists w, a. rewrite Lw in *. repeat split; auto; apply Pa; auto.
Qed.

Theorem invntt_total : forall v, length v = 256%nat -> bnd Q v ->
  exists a, invntt_tomont v = CRet a /\ length a = 256%nat /\ bnd INVB a.
Proof.
  intros v L H. destruct (invntt_chain v L H) as (w & a & C & E & La & P).
  exists a. split; [exact E|]. split; [exact La|]. intros p Hp. apply P. exact Hp.
Qed.

Lemma eqq_256 : forall x y, eqq (256 * x) (256 * y) -> eqq x y.
Proof.
  intros x y [k E]. (* 256 * 8347681 = 1 mod Q *)
  exists (k * 8347681 - 255 * (x - y)).
  unfold Q in *. lia.
Qed.
Theorem invntt_ok : forall v f, length v = 256%nat -> bnd Q v ->
  (forall p, (p < 256)%nat -> eqq (at_ v p * 4294967296) (ev p f)) ->
  exists a, invntt_tomont v = CRet a /\ length a = 256%nat /\
    (forall p, (p < 256)%nat -> - INVB <= at_ a p <= INVB /\ eqq (at_ a p) (at_ f p)).
Proof.
  intros v f L H He. destruct (invntt_chain v L H) as (w & a & C & E & La & P).
  exists a. split; [exact E|]. split; [exact La|]. intros p Hp. destruct (P p Hp) as [P1 P2].
  split; [exact P1|].
  set (g := firstn 256 (red f ++ repeat 0 256)).
  assert (Lg : length g = 256%nat).
  { unfold g. rewrite firstn_length, app_length, repeat_length. lia. }
  assert (Gf : forall i, (i < 256)%nat -> at_ g i = at_ (red f) i).
  { intros i Hi. unfold g, at_. rewrite <- (firstn_skipn 256 (red f ++ repeat 0 256)) .
    assert (X : nth i (firstn 256 (red f ++ repeat 0 256)) 0 = nth i (red f ++ repeat 0 256) 0).
    { rewrite <- (firstn_skipn 256 (red f ++ repeat 0 256)) at 2. rewrite app_nth1; [reflexivity|].
      rewrite firstn_length, app_length, repeat_length. lia. }
    rewrite firstn_skipn. rewrite X.
    destruct (Nat.lt_ge_cases i (length (red f))) as [A|A].
    - rewrite app_nth1 by exact A. reflexivity.
    - rewrite app_nth2, nth_repeat by exact A. rewrite nth_overflow by exact A. reflexivity. }
  assert (Bg : bnd Q g) by (intros i Hi; rewrite Gf by exact Hi; apply red_bnd; exact Hi).
  destruct (ntt_chain g Q Lg Bg) as (u & _ & Lu & _ & Cu); [unfold Q; lia|].
  assert (V : peq RINV v u).
  { intros q Hq. assert (A : eqq (at_ v q * 4294967296) (at_ u q)).
    { eapply eqq_trans; [apply He; exact Hq|]. eapply eqq_trans; [|apply eqq_sym, chain_ev; eauto].
      apply ev_eqq. intros i Hi. rewrite Gf by exact Hi. apply eqq_sym, red_eqq. }
    apply eqq_cancel_R. eapply eqq_trans; [exact A|].
    replace (RINV * at_ u q * 4294967296) with (at_ u q * (4294967296 * RINV)) by ring.
    rewrite <- (Z.mul_1_r (at_ u q)) at 1. apply eqq_mul; [apply eqq_refl|apply eqq_sym, R_inv]. }
  pose proof (inv_fwd_chain RINV g u v w Cu V C p Hp) as W.
  (* a * R = F * w = F * 256 * RINV * g, and F * 256 = R^2 *)
  apply eqq_cancel_R. eapply eqq_trans; [exact P2|].
  eapply eqq_trans; [apply eqq_mul; [apply eqq_refl|exact W]|].
  eapply eqq_trans with (y := at_ g p * 4294967296).
  - replace (F_INV * (256 * RINV * at_ g p)) with (at_ g p * (F_INV * 256 * RINV)) by ring.
    apply eqq_mul; [apply eqq_refl|]. exists ((F_INV * 256 * RINV - 4294967296) / Q). vm_compute. reflexivity.
  - apply eqq_mul; [|apply eqq_refl]. rewrite Gf by exact Hp. apply red_eqq.
Qed.

(** Every array is the transform of a polynomial. *)
Theorem ev_surjective : forall v, length v = 256%nat ->
  exists f, length f = 256%nat /\ (forall p, (p < 256)%nat -> eqq (at_ v p) (ev p f)).
Proof.
  intros v L.
  destruct (inv_chain (red v)) as (w & _ & Lw & _ & C); [rewrite red_length; exact L|apply red_bnd|].
  assert (L2 : length (red w) = 256%nat) by (rewrite red_length; exact Lw).
  destruct (ntt_chain (red w) Q L2 (red_bnd w)) as (u & _ & Lu & _ & Cu); [unfold Q; lia|].
  assert (U : peq 256 u (red v)).
  { intros p Hp. apply (fwd_inv_chain 1 (red v) w (red w) u C); auto.
    intros i Hi. rewrite Z.mul_1_l. apply red_eqq. }
  exists (map (fun x => 8347681 * x) (red w)). split; [rewrite map_length; exact L2|].
  intros p Hp. apply eqq_256.
  eapply eqq_trans with (y := at_ u p).
  - eapply eqq_trans; [|apply eqq_sym, U; exact Hp]. apply eqq_mul; [apply eqq_refl|apply eqq_sym, red_eqq].
  - eapply eqq_trans; [apply chain_ev; [exact Hp|exact Cu]|].
    unfold ev. rewrite <- nsum_scal. apply nsum_eqq. intros i Hi.
    rewrite Z.mul_assoc. apply eqq_mul; [|apply eqq_refl].
    rewrite map_at by (rewrite L2; exact Hi).
    exists (- 255 * at_ (red w) i). unfold Q. ring.
Qed.

Local Opaque root.
(** ** Evaluation is a ring homomorphism on Z_Q[x]/(x^256+1) *)
Definition evF (p : nat) (F : Z -> Z) : Z := nsum 256 (fun i => F (Z.of_nat i) * root p ^ Z.of_nat i).
Lemma ev_evF : forall p a, ev p a = evF p (E a).
Proof.
  intros p a. apply nsum_ext. intros i Hi. unfold E. rewrite ext_nat by exact Hi. reflexivity.
Qed.
Lemma evF_cong : forall p F G, cong Q F G -> eqq (evF p F) (evF p G).
Proof.
  intros p F G H. apply nsum_eqq. intros i Hi. apply eqq_mul; [apply eqq_mod, H|apply eqq_refl].
Qed.
Lemma evF_add : forall p F G, evF p (fun k => F k + G k) = evF p F + evF p G.
Proof. intros. unfold evF. rewrite <- nsum_add. apply nsum_ext. intros i _. generalize (root p ^ Z.of_nat i). intro. ring. Qed.
Lemma evF_scal : forall p c F, evF p (fun k => c * F k) = c * evF p F.
Proof. intros. unfold evF. rewrite <- nsum_scal. apply nsum_ext. intros i _. generalize (root p ^ Z.of_nat i). intro. ring. Qed.
Lemma nsum_sub : forall n f g, nsum n (fun i => f i - g i) = nsum n f - nsum n g.
Proof. induction n; intros; [reflexivity|]. rewrite !nsum_S, IHn. ring. Qed.
Lemma evF_sub : forall p F G, evF p (fun k => F k - G k) = evF p F - evF p G.
Proof. intros. unfold evF. rewrite <- nsum_sub. apply nsum_ext. intros i _. generalize (root p ^ Z.of_nat i). intro. ring. Qed.

(** Powers of a root extended to negative exponents: its order divides 512. *)
Definition rpow (p : nat) (k : Z) : Z := root p ^ (k mod 512).
Lemma rpow_in : forall p k, 0 <= k < 512 -> rpow p k = root p ^ k.
Proof. intros. unfold rpow. rewrite Z.mod_small by lia. reflexivity. Qed.
Lemma root_512 : forall p, (p < 256)%nat -> eqq (root p ^ 512) 1.
Proof.
  intros p Hp. change 512 with (256 * 2). rewrite Z.pow_mul_r, Z.pow_2_r by lia.
  change 1 with (-1 * -1). apply eqq_mul; apply root_256; exact Hp.
Qed.
Lemma rpow_mod : forall p k, (p < 256)%nat -> 0 <= k -> eqq (root p ^ k) (rpow p k).
Proof.
  intros p k Hp Hk. unfold rpow. pose proof (Z.div_mod k 512 ltac:(lia)) as D.
  pose proof (Z.mod_pos_bound k 512 ltac:(lia)). assert (0 <= k / 512) by (apply Z.div_pos; lia).
  rewrite D at 1. rewrite Z.pow_add_r, Z.pow_mul_r by lia.
  rewrite <- (Z.mul_1_l (root p ^ (k mod 512))) at 2. apply eqq_mul; [|apply eqq_refl].
  replace 1 with (1 ^ (k / 512)) by (apply Z.pow_1_l; lia). apply eqq_pow; [lia|apply root_512; exact Hp].
Qed.
Lemma rpow_add : forall p j k, (p < 256)%nat -> eqq (rpow p (j + k)) (rpow p j * rpow p k).
Proof.
  intros p j k Hp. unfold rpow at 2 3. pose proof (Z.mod_pos_bound j 512 ltac:(lia)).
  pose proof (Z.mod_pos_bound k 512 ltac:(lia)). rewrite <- Z.pow_add_r by lia.
  eapply eqq_trans; [|apply eqq_sym, rpow_mod; [exact Hp|lia]].
  unfold rpow. rewrite <- Zplus_mod. apply eqq_refl.
Qed.
Lemma rpow_256 : forall p k, (p < 256)%nat -> eqq (rpow p (k + 256)) (- rpow p k).
Proof.
  intros p k Hp. eapply eqq_trans; [apply rpow_add; exact Hp|].
  rewrite (rpow_in p 256) by lia. replace (- rpow p k) with (rpow p k * -1) by ring.
  apply eqq_mul; [apply eqq_refl|apply root_256; exact Hp].
Qed.

Lemma zsum_eqq : forall n f g, (forall i, 0 <= i < Z.of_nat n -> eqq (f i) (g i)) -> eqq (zsum n f) (zsum n g).
Proof.
  intros n f g H. apply eqq_mod. apply zsum_mod. intros i Hi. apply eqq_mod. apply H. exact Hi.
Qed.
Lemma evF_zsum : forall p F, (p < 256)%nat -> eqq (evF p F) (zsum 256 (fun k => F k * rpow p k)).
Proof.
  intros p F Hp. unfold evF, nsum. apply zsum_eqq. intros i Hi. rewrite Z2Nat.id by lia.
  rewrite rpow_in by lia. apply eqq_refl.
Qed.

Theorem evF_star : forall p F G, (p < 256)%nat -> anti F -> anti G ->
  eqq (evF p (star F G)) (evF p F * evF p G).
Proof.
  intros p F G Hp HF HG.
  eapply eqq_trans; [apply evF_zsum; exact Hp|].
  eapply eqq_trans; [|apply eqq_sym; apply eqq_mul; apply evF_zsum; exact Hp].
  unfold star, nconv.
  (* sum_k sum_i F i G(k-i) r^k = sum_i F i r^i sum_k G(k-i) r^(k-i) *)
  assert (S1 : eqq (zsum 256 (fun k => zsum DEG (fun i => F i * G (k - i)) * rpow p k))
                   (zsum 256 (fun k => zsum 256 (fun i => (F i * rpow p i) * (G (k - i) * rpow p (k - i)))))).
  { apply zsum_eqq. intros k Hk. rewrite <- zsum_scal_r. apply zsum_eqq. intros i Hi.
    replace (F i * rpow p i * (G (k - i) * rpow p (k - i))) with (F i * G (k - i) * (rpow p i * rpow p (k - i))) by ring.
    apply eqq_mul; [apply eqq_refl|]. replace k with (i + (k - i)) at 1 by ring. apply rpow_add. exact Hp. }
  eapply eqq_trans; [exact S1|].
  rewrite zsum_swap. rewrite <- zsum_scal_r. apply zsum_eqq. intros i Hi.
  rewrite zsum_scal_l. apply eqq_mul; [apply eqq_refl|].
  set (H := fun m => (G m * rpow p m) mod Q).
  assert (PH : periodic 256 H).
  { intro m. unfold H. apply eqq_mod. pose proof (HG m) as HGm. change (Z.of_nat DEG) with (Z.of_nat 256) in HGm. rewrite HGm.
    change (Z.of_nat 256) with 256.
    replace (G m * rpow p m) with (- G m * - rpow p m) by ring.
    apply eqq_mul; [apply eqq_refl|apply rpow_256; exact Hp]. }
  assert (HH : forall m, eqq (G m * rpow p m) (H m)).
  { intro m. apply eqq_mod. symmetry. apply Z.mod_mod. discriminate. }
  eapply eqq_trans; [apply zsum_eqq; intros k Hk; apply HH|].
  eapply eqq_trans; [|apply eqq_sym; apply zsum_eqq; intros k Hk; apply HH].
  pose proof (zsum_shift 256 H (- i) PH) as Sh.
  replace (zsum 256 (fun k => H (k - i))) with (zsum 256 (fun k => H (k + - i))) by (apply zsum_ext; intros; f_equal; lia).
  rewrite Sh. apply eqq_refl.
Qed.
