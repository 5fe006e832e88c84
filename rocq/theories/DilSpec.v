(** * DilSpec: Dilithium2 as written in the specification, over Z_q[x]/(x^256+1), and the proof
    that key generation, signing and verification of sign.c compute it. *)
From Coq Require Import ZArith List Lia Bool.
From Verif Require Import Base Bits SaberPoly Ring SaberRing DilArith DilNtt DilNttProof DilNttEval DilNttSpec
  DilPoly DilPack DilCodec DilCodec2 DilHint DilOps DilSample DilRound DilSign DilCorrect DilProps DilRing.
Import ListNotations.
Open Scope Z_scope.
Local Opaque root positions ev negacyclic.

(** ** The specification *)
(** Congruence modulo q. *)
Definition cq (x y : Z) : Prop := (x - y) mod 8380417 = 0.
(** Coefficient [k] of polynomial [i] of a vector. *)
Definition co (v : polyvec) (i k : nat) : Z := nth k (nth i v []) 0.
(** A statement about all coefficients of a vector of four polynomials of degree below 256. *)
Definition every (P : nat -> nat -> Prop) : Prop := forall i k, (i < 4)%nat -> (k < 256)%nat -> P i k.
(** Vectors: four polynomials of 256 coefficients. *)
Definition shaped (v : polyvec) : Prop := length v = 4%nat /\ forall i, (i < 4)%nat -> length (nth i v []) = 256%nat.
(** Coefficient [k] of the inner product of two vectors, modulo x^256 + 1. *)
Definition dot (a z : polyvec) (k : nat) : Z :=
  negacyclic 256 (nth 0 a []) (nth 0 z []) k + negacyclic 256 (nth 1 a []) (nth 1 z []) k +
  negacyclic 256 (nth 2 a []) (nth 2 z []) k + negacyclic 256 (nth 3 a []) (nth 3 z []) k.
(** The public matrix: entry (i, j) is the polynomial whose transform is sampled from the seed. *)
Definition public_matrix (fuel : nat) (X : xof) (rho : bytes) (A : list polyvec) : Prop :=
  length A = 4%nat /\ forall i, (i < 4)%nat -> shaped (nth i A []) /\ forall j, (j < 4)%nat ->
    (forall k, (k < 256)%nat -> 0 <= co (nth i A []) j k < 8380417) /\
    exists a t, poly_uniform fuel X rho (256 * Z.of_nat i + Z.of_nat j) = CRet a /\
      ntt (nth j (nth i A []) []) = CRet t /\ forall k, (k < 256)%nat -> cq (nth k t 0) (nth k a 0).
(** High and low parts (a1, a0) of a: a = a1 * 190464 + a0 with a0 in (-95232, 95232], except that
    the topmost values wrap to a1 = 0. *)
Definition high_low (a a1 a0 : Z) : Prop :=
  (0 <= a1 < 44 /\ -95232 < a0 <= 95232 /\ a = a1 * 190464 + a0) \/
  (a1 = 0 /\ -95232 <= a0 < 0 /\ a = 8380417 + a0).
(** The number of ones in a hint. *)
Definition ones (h : polyvec) : Z := zlist_sum (map zlist_sum h).

(** The hint for commitment high part a1 and signer's low part a0: 0 when a0 still decomposes to a1. *)
Definition hint_bit (a0 a1 : Z) : Z :=
  if (-95232 <? a0) && (a0 <=? 95232) || (a0 =? -95232) && (a1 =? 0) then 0 else 1.

(** One signing attempt with mask number [nonce]. *)
Definition attempt_spec (fuel : nat) (X : xof) (A : list polyvec) (s1 s2 t0 : polyvec) (mu rp : bytes) (nonce : Z)
    (r : option bytes) : Prop :=
  exists w w1 w0 c, let y := polyvecl_uniform_gamma1 X rp nonce in
    let ct := H256 X 32 (mu ++ polyveck_pack_w1 w1) in
    shaped w /\ shaped w1 /\ shaped w0 /\
    every (fun i k => 0 <= co w i k < 8380417 /\ cq (co w i k) (dot (nth i A []) y k)) /\
    every (fun i k => high_low (co w i k) (co w1 i k) (co w0 i k)) /\
    poly_challenge fuel X ct = CRet c /\
    let cs1 i k := negacyclic 256 c (nth i s1 []) k in
    let cs2 i k := negacyclic 256 c (nth i s2 []) k in
    let ct0 i k := negacyclic 256 c (nth i t0 []) k in
    let hinted u v h := shaped h /\ every (fun i k =>
      cq (u i k) (co w0 i k - cs2 i k) /\ Z.abs (u i k) < 95232 - 78 /\
      cq (v i k) (ct0 i k) /\ Z.abs (v i k) < 95232 /\
      co h i k = hint_bit (u i k + v i k) (co w1 i k)) in
    match r with
    | Some sig => exists z u v h, shaped z /\
        every (fun i k => cq (co z i k) (co y i k + cs1 i k) /\ Z.abs (co z i k) < 131072 - 78) /\
        hinted u v h /\ ones h <= 80 /\ pack_sig ct z h = CRet sig
    | None =>
        ~ every (fun i k => exists x, cq x (co y i k + cs1 i k) /\ Z.abs x < 131072 - 78) \/
        ~ every (fun i k => exists x, cq x (co w0 i k - cs2 i k) /\ Z.abs x < 95232 - 78) \/
        ~ every (fun i k => exists x, cq x (ct0 i k) /\ Z.abs x < 95232) \/
        exists u v h, hinted u v h /\ 80 < ones h
    end.

(** The verifier's repaired high part. *)
Definition repaired (r h v : Z) : Prop := exists r1 r0, high_low r r1 r0 /\
  v = (if h =? 0 then r1 else if 0 <? r0 then (r1 + 1) mod 44 else (r1 - 1) mod 44).
(** What makes a signature valid. *)
Definition valid_spec (fuel : nat) (X : xof) (sig m pk : bytes) : Prop :=
  length sig = 2420%nat /\ exists c z h cp A w w1, let '(rho, t1) := unpack_pk pk in
    unpack_sig sig = Some (c, z, h) /\ every (fun i k => Z.abs (co z i k) < 131072 - 78) /\
    poly_challenge fuel X c = CRet cp /\ public_matrix fuel X rho A /\
    shaped w /\ shaped w1 /\
    every (fun i k => 0 <= co w i k < 8380417 /\
      cq (co w i k) (dot (nth i A []) z k - negacyclic 256 cp (nth i t1 []) k * 8192)) /\
    every (fun i k => repaired (co w i k) (co h i k) (co w1 i k)) /\
    c = H256 X 32 (H256 X 64 (H256 X 64 pk ++ m) ++ polyveck_pack_w1 w1).

(** ** Bridges *)
Lemma cq_eqq : forall x y, cq x y <-> eqq x y.
Proof.
  intros x y. unfold cq. fold Q. split.
  - intro H. exists ((x - y) / Q). pose proof (Z.div_mod (x - y) Q ltac:(discriminate)). lia.
  - apply eqq_sub_mod.
Qed.
Lemma co_at : forall v i k, co v i k = at_ (vat v i) k. Proof. reflexivity. Qed.
Lemma shaped_vec : forall v, shaped v <-> vec (fun a => length a = 256%nat) v. Proof. reflexivity. Qed.
Lemma high_low_dec : forall a a1 a0, high_low a a1 a0 <-> decomposed a a1 a0.
Proof. intros. unfold high_low, decomposed, GAMMA2, Q. change (2 * 95232) with 190464. change (- (95232)) with (-95232). reflexivity. Qed.
Lemma vec_shaped : forall P v, vec P v -> (forall a, P a -> length a = 256%nat) -> shaped v.
Proof. intros P v V H. apply shaped_vec. eapply vec_impl; [|exact V]. exact H. Qed.
Lemma vec4_shaped : forall P v, vec4 P v -> shaped v.
Proof. intros P v V. apply vec4_at in V. eapply vec_shaped; [exact V|]. intros a [L _]. exact L. Qed.

(** The matrix in the ring. *)
Lemma ring_poly : forall v, std v -> exists a t, std a /\ ntt a = CRet t /\ (forall k, (k < 256)%nat -> eqq (at_ t k) (at_ v k)) /\
  (forall p, (p < 256)%nat -> eqq (at_ v p) (ev p a)).
Proof.
  intros v [L S]. destruct (ev_surjective v L) as (f & Lf & F).
  assert (Sf : std (red f)). { split; [rewrite red_length; exact Lf|]. intros p _. apply red_range. }
  destruct (poly_ntt_ok (red f) (std_pol _ Sf)) as (t & Et & _ & T). exists (red f), t.
  assert (G : forall p, (p < 256)%nat -> eqq (at_ v p) (ev p (red f))).
  { intros p Hp. eapply eqq_trans; [apply F; exact Hp|]. apply ev_eqq. intros i _. apply eqq_sym, red_eqq. }
  split; [exact Sf|]. split; [exact Et|]. split; [|exact G].
  intros k Hk. eapply eqq_trans; [apply T; exact Hk|]. apply eqq_sym, G. exact Hk.
Qed.
Lemma list4 : forall {A B} (R : nat -> B -> Prop) (d : B) (l : list A), length l = 4%nat ->
  (forall i, (i < 4)%nat -> exists b, R i b) -> exists l', length l' = 4%nat /\ forall i, (i < 4)%nat -> R i (nth i l' d).
Proof.
  intros A B R d l _ H. destruct (H 0%nat ltac:(lia)) as (b0 & H0). destruct (H 1%nat ltac:(lia)) as (b1 & H1).
  destruct (H 2%nat ltac:(lia)) as (b2 & H2). destruct (H 3%nat ltac:(lia)) as (b3 & H3).
  exists [b0; b1; b2; b3]. split; [reflexivity|]. intros i Hi. destruct i as [|[|[|[|i]]]]; cbn [nth]; try assumption. lia.
Qed.
Definition entries (mat A : list polyvec) : Prop := length A = 4%nat /\ forall i, (i < 4)%nat -> vec std (nth i A []) /\
  forall j, (j < 4)%nat -> forall p, (p < 256)%nat -> eqq (mentry mat i j p) (ev p (vat (nth i A []) j)).
Lemma expand_entries : forall fuel X rho mat, polyvec_matrix_expand fuel X rho = CRet mat -> forall i j, (i < 4)%nat -> (j < 4)%nat ->
  poly_uniform fuel X rho (256 * Z.of_nat i + Z.of_nat j) = CRet (vat (nth i mat []) j).
Proof.
  intros fuel X rho mat H i j Hi Hj.
  assert (G : forall {A B} (f : A -> crun B) (da : A) (db : B) l l', mapM f l = CRet l' ->
    forall n, (n < length l)%nat -> f (nth n l da) = CRet (nth n l' db)).
  { intros A B f da db. induction l as [|a l IH]; intros l' E n Hn; [cbn in Hn; lia|]. cbn [mapM] in E.
    destruct (f a) as [b| |] eqn:Ea; try discriminate E. cbn [cbind] in E.
    destruct (mapM f l) as [r| |] eqn:Er; try discriminate E. cbn [cbind] in E. assert (l' = b :: r) as -> by congruence.
    destruct n; [exact Ea|]. cbn [nth]. apply IH; [reflexivity|]. cbn in Hn. lia. }
  unfold polyvec_matrix_expand in H.
  pose proof (G nat polyvec _ 0%nat [] _ _ H i ltac:(rewrite seq_length; exact Hi)) as H1. cbv beta in H1.
  pose proof (G nat poly _ 0%nat [] _ _ H1 j ltac:(rewrite seq_length; exact Hj)) as H2. cbv beta in H2.
  rewrite !seq_nth in H2 by assumption. rewrite !Nat.add_0_l in H2. rewrite Z.shiftl_mul_pow2 in H2 by lia.
  change (2 ^ 8) with 256 in H2. rewrite (Z.mul_comm (Z.of_nat i)) in H2. exact H2.
Qed.
Lemma matrix_ring : forall fuel X rho mat, polyvec_matrix_expand fuel X rho = CRet mat ->
  exists A, public_matrix fuel X rho A /\ entries mat A.
Proof.
  intros fuel X rho mat Em. pose proof (safe_inv _ _ _ (matrix_expand_ok fuel X rho) Em) as [L M].
  destruct (list4 (fun i row => vec std row /\ forall j, (j < 4)%nat -> exists t, ntt (vat row j) = CRet t /\
    (forall k, (k < 256)%nat -> eqq (at_ t k) (mentry mat i j k)) /\ (forall p, (p < 256)%nat -> eqq (mentry mat i j p) (ev p (vat row j)))) [] mat L)
    as (A & LA & HA).
  { intros i Hi. destruct (M i Hi) as [Li Mi].
    destruct (list4 (fun j a => std a /\ exists t, ntt a = CRet t /\ (forall k, (k < 256)%nat -> eqq (at_ t k) (mentry mat i j k)) /\
      (forall p, (p < 256)%nat -> eqq (mentry mat i j p) (ev p a))) [] (nth i mat []) Li) as (row & Lr & HR).
    { intros j Hj. destruct (ring_poly _ (Mi j Hj)) as (a & t & Sa & Et & T & V). exists a. split; [exact Sa|]. exists t. auto. }
    exists row. split; [split; [exact Lr|]; intros j Hj; apply HR; exact Hj|]. intros j Hj. apply HR. exact Hj. }
  exists A. split.
  - split; [exact LA|]. intros i Hi. destruct (HA i Hi) as [V T]. split.
    + eapply vec_shaped; [exact V|]. intros a [La _]. exact La.
    + intros j Hj. split.
      * intros k Hk. destruct V as [_ V]. destruct (V j Hj) as [_ S]. apply (S k Hk).
      * destruct (T j Hj) as (t & Et & T1 & _). exists (vat (nth i mat []) j), t.
        split; [apply expand_entries; assumption|]. split; [exact Et|]. intros k Hk. apply cq_eqq. apply T1. exact Hk.
  - split; [exact LA|]. intros i Hi. destruct (HA i Hi) as [V T]. split; [exact V|]. intros j Hj p Hp.
    destruct (T j Hj) as (t & _ & _ & T2). apply T2. exact Hp.
Qed.
(** [public_matrix] determines the matrix. *)
Lemma public_entries : forall fuel X rho mat A, polyvec_matrix_expand fuel X rho = CRet mat -> public_matrix fuel X rho A -> entries mat A.
Proof.
  intros fuel X rho mat A Em [LA HA]. split; [exact LA|]. intros i Hi. destruct (HA i Hi) as [[Lr Sr] H].
  assert (V : vec std (nth i A [])).
  { split; [exact Lr|]. intros j Hj. split; [apply Sr; exact Hj|]. intros p Hp. apply (proj1 (H j Hj) p Hp). }
  split; [exact V|]. intros j Hj p Hp. destruct (H j Hj) as [_ (a & t & Ea & Et & C)].
  rewrite (expand_entries fuel X rho mat Em i j Hi Hj) in Ea. assert (a = vat (nth i mat []) j) as -> by congruence.
  destruct V as [_ V]. destruct (poly_ntt_ok (vat (nth i A []) j) (std_pol _ (V j Hj))) as (t' & Et' & _ & T).
  unfold vat in Et'. rewrite Et in Et'. assert (t' = t) as -> by congruence.
  eapply eqq_trans; [|apply T; exact Hp]. apply eqq_sym. apply cq_eqq. apply C. exact Hp.
Qed.

(** Matrix rows in the ring. *)
Lemma ring_row_exists : forall mat A z i, entries mat A -> (i < 4)%nat -> shaped z ->
  exists d, length d = 256%nat /\ (forall k, (k < 256)%nat -> eqq (at_ d k) (dot (nth i A []) z k)) /\
    (forall p, (p < 256)%nat -> eqq (ev p d) (mrow mat z i p)).
Proof.
  intros mat A z i [LA HA] Hi [Lz Sz]. destruct (HA i Hi) as [[_ V] E].
  set (d := map (fun k => dot (nth i A []) z k) (seq 0 256)).
  assert (D : forall k, (k < 256)%nat -> at_ d k = dot (nth i A []) z k).
  { intros k Hk. unfold d. apply (nth_map_seq (fun k => dot (nth i A []) z k)). exact Hk. }
  assert (Ld : length d = 256%nat) by (unfold d; rewrite map_length, seq_length; reflexivity).
  clearbody d. exists d. split; [exact Ld|]. split; [intros k Hk; rewrite D by exact Hk; apply eqq_refl|]. intros p Hp. apply eqq_sym.
  assert (P : forall j, (j < 4)%nat -> eqq (mentry mat i j p * ev p (vat z j)) (ev p (rmul (vat (nth i A []) j) (vat z j)))).
  { intros j Hj. eapply eqq_trans; [apply eqq_mul; [apply E; assumption|apply eqq_refl]|].
    apply eqq_sym, ev_rmul; [exact Hp|apply V; exact Hj|apply Sz; exact Hj]. }
  unfold mrow.
  eapply eqq_trans; [repeat apply eqq_add; apply P; lia|]. apply eqq_sym.
  set (m0 := rmul (vat (nth i A []) 0) (vat z 0)). set (m1 := rmul (vat (nth i A []) 1) (vat z 1)).
  set (m2 := rmul (vat (nth i A []) 2) (vat z 2)). set (m3 := rmul (vat (nth i A []) 3) (vat z 3)).
  set (d1 := map (fun k => at_ m0 k + at_ m1 k) (seq 0 256)). set (d2 := map (fun k => at_ d1 k + at_ m2 k) (seq 0 256)).
  assert (D1 : forall k, (k < 256)%nat -> at_ d1 k = at_ m0 k + at_ m1 k).
  { intros k Hk. unfold d1. apply (nth_map_seq (fun k => at_ m0 k + at_ m1 k)). exact Hk. }
  assert (D2 : forall k, (k < 256)%nat -> at_ d2 k = at_ d1 k + at_ m2 k).
  { intros k Hk. unfold d2. apply (nth_map_seq (fun k => at_ d1 k + at_ m2 k)). exact Hk. }
  assert (DD : forall k, (k < 256)%nat -> at_ d k = at_ d2 k + at_ m3 k).
  { intros k Hk. rewrite D, D2, D1 by exact Hk. unfold m0, m1, m2, m3. rewrite !rmul_at by exact Hk. reflexivity. }
  clearbody d1 d2 m0 m1 m2 m3.
  eapply eqq_trans; [apply (ev_add d d2 m3); intros k Hk; rewrite DD by exact Hk; apply eqq_refl|].
  apply eqq_add; [|apply eqq_refl].
  eapply eqq_trans; [apply (ev_add d2 d1 m2); intros k Hk; rewrite D2 by exact Hk; apply eqq_refl|].
  apply eqq_add; [|apply eqq_refl]. apply ev_add. intros k Hk. rewrite D1 by exact Hk. apply eqq_refl.
Qed.
Lemma mrow_dot : forall mat A z r i, entries mat A -> (i < 4)%nat -> shaped z -> (forall p, (p < 256)%nat -> eqq (ev p r) (mrow mat z i p)) ->
  forall k, (k < 256)%nat -> eqq (at_ r k) (dot (nth i A []) z k).
Proof.
  intros mat A z r i EA Hi Sz H k Hk. destruct (ring_row_exists mat A z i EA Hi Sz) as (d & Ld & Ed & Vd).
  eapply eqq_trans; [|apply Ed; exact Hk]. revert k Hk. apply ev_inj. intros p Hp.
  eapply eqq_trans; [apply H; exact Hp|apply eqq_sym, Vd; exact Hp].
Qed.
Lemma cmul_ring : forall c v r, length c = 256%nat -> shaped v ->
  (forall i, (i < 4)%nat -> forall p, (p < 256)%nat -> eqq (ev p (vat r i)) (ev p c * ev p (vat v i))) ->
  forall i k, (i < 4)%nat -> (k < 256)%nat -> eqq (at_ (vat r i) k) (negacyclic 256 c (nth i v []) k).
Proof.
  intros c v r Lc [Lv Sv] H i k Hi Hk. fold (vat v i). rewrite <- (rmul_at c (vat v i) k Hk). revert k Hk. apply ev_inj.
  intros p Hp. eapply eqq_trans; [apply H; assumption|]. apply eqq_sym. apply ev_rmul; [exact Hp|exact Lc|apply Sv; exact Hi].
Qed.
