(** * DilRing: what the Dilithium2 arithmetic computes, in the ring Z_q[x]/(x^256+1). *)
From Coq Require Import ZArith List Lia Bool.
From Verif Require Import Base Bits SaberPoly Ring SaberRing DilArith DilNtt DilNttProof DilNttEval DilNttSpec
  DilPoly DilPack DilCodec DilCodec2 DilHint DilOps DilSample DilRound DilSign DilCorrect DilProps.
Import ListNotations.
Open Scope Z_scope.
Local Opaque root positions.

Lemma eqq_sub_mod : forall x y, eqq x y -> (x - y) mod Q = 0.
Proof. intros x y [t ->]. replace (y + t * Q - y) with (t * Q) by ring. apply Z.mod_mul. discriminate. Qed.

(** Evaluation is multiplicative for the product modulo x^256 + 1. *)
Lemma ev_product : forall p a b r, (p < 256)%nat -> length a = 256%nat -> length b = 256%nat ->
  (forall k, (k < 256)%nat -> eqq (at_ r k) (negacyclic 256 a b k)) -> eqq (ev p r) (ev p a * ev p b).
Proof.
  intros p a b r Hp La Lb H. rewrite (ev_evF p a), (ev_evF p b).
  eapply eqq_trans; [|apply evF_star; [exact Hp| |]].
  - unfold ev, evF. apply nsum_eqq. intros k Hk. apply eqq_mul; [|apply eqq_refl].
    eapply eqq_trans; [apply H; exact Hk|]. rewrite negacyclic_nconv by exact Hk.
    unfold star, E, DEG. apply eqq_refl.
  - apply ext_antiper. unfold DEG. lia.
  - apply ext_antiper. unfold DEG. lia.
Qed.

(** The product as a polynomial. *)
Definition rmul (a b : poly) : poly := map (fun k => negacyclic 256 a b k) (seq 0 256).
Lemma rmul_at : forall a b k, (k < 256)%nat -> at_ (rmul a b) k = negacyclic 256 a b k.
Proof. intros. unfold rmul. apply (nth_map_seq (fun k => negacyclic 256 a b k)). assumption. Qed.
Lemma ev_rmul : forall p a b, (p < 256)%nat -> length a = 256%nat -> length b = 256%nat -> eqq (ev p (rmul a b)) (ev p a * ev p b).
Proof. intros p a b Hp La Lb. apply ev_product; auto. intros k Hk. rewrite rmul_at by exact Hk. apply eqq_refl. Qed.

(** The transform of a product: forward transforms, pointwise product and inverse transform
    together compute the product modulo x^256 + 1 and q. *)
Theorem dil_ntt_product : forall a b, pol Q a -> pol Q b ->
  exists ah bh ch r, ntt a = CRet ah /\ ntt b = CRet bh /\ poly_pointwise_montgomery ah bh = CRet ch /\
    invntt_tomont ch = CRet r /\ length r = 256%nat /\
    (forall k, (k < 256)%nat -> - Q < at_ r k < Q /\ (at_ r k - negacyclic 256 a b k) mod Q = 0).
Proof.
  intros a b A B. destruct (poly_ntt_ok a A) as (ah & E1 & P1 & V1). destruct (poly_ntt_ok b B) as (bh & E2 & P2 & V2).
  destruct (poly_pointwise_ok ah bh P1 P2) as (ch & E3 & P3 & V3). destruct (poly_invntt_ok ch P3) as (r & E4 & P4 & V4).
  exists ah, bh, ch, r. repeat (split; [assumption|]). split; [apply P4|]. intros k Hk. split.
  - destruct P4 as [_ P4]. specialize (P4 k Hk). unfold INVB, Q in *. lia.
  - assert (G : eqq (at_ r k) (at_ (rmul a b) k)).
    { apply ev_inj; [|exact Hk]. intros p Hp. eapply eqq_trans; [apply V4; exact Hp|]. eapply eqq_trans; [apply V3; exact Hp|].
      apply eqq_sym. eapply eqq_trans; [apply ev_rmul; [exact Hp|apply A|apply B]|].
      apply eqq_mul; apply eqq_sym; [apply V1|apply V2]; exact Hp. }
    rewrite rmul_at in G by exact Hk. apply eqq_sub_mod. exact G.
Qed.

(** Transforming and transforming back multiplies by 2^32 modulo q. *)
Theorem dil_ntt_inverse : forall a, pol Q a ->
  exists ah ar r, ntt a = CRet ah /\ poly_reduce ah = CRet ar /\ invntt_tomont ar = CRet r /\
    (forall k, (k < 256)%nat -> (at_ r k - at_ a k * 2 ^ 32) mod Q = 0).
Proof.
  intros a A. destruct (poly_ntt_ok a A) as (ah & E1 & P1 & V1).
  destruct (poly_reduce_ok ah) as (ar & E2 & P2 & V2); [eapply pol_le; [|exact P1]; unfold Q; lia|].
  destruct (poly_invntt_ok ar) as (r & E3 & P3 & V3); [eapply pol_le; [|exact P2]; unfold REDB, Q; lia|].
  exists ah, ar, r. repeat (split; [assumption|]). intros k Hk.
  set (s := map (fun i => at_ a i * 4294967296) (seq 0 256)).
  assert (S : forall i, (i < 256)%nat -> at_ s i = at_ a i * 4294967296).
  { intros i Hi. unfold s. apply (nth_map_seq (fun i => at_ a i * 4294967296)). exact Hi. }
  clearbody s.
  assert (G : eqq (at_ r k) (at_ s k)).
  { apply ev_inj; [|exact Hk]. intros p Hp. eapply eqq_trans; [apply V3; exact Hp|].
    apply eqq_sym. eapply eqq_trans; [apply (ev_scal s 4294967296 a)|].
    - intros i Hi. rewrite S by exact Hi. rewrite Z.mul_comm. apply eqq_refl.
    - rewrite Z.mul_comm. apply eqq_mul; [|apply eqq_refl]. eapply eqq_trans; [apply eqq_sym, V1; exact Hp|].
      apply eqq_sym, V2. exact Hp. }
  rewrite S in G by exact Hk. apply eqq_sub_mod. exact G.
Qed.

(** ** Products by a challenge are short *)
Lemma zsum_abs : forall n f, Z.abs (zsum n f) <= zsum n (fun i => Z.abs (f i)).
Proof. induction n as [|n IH]; intro f; cbn [zsum]; [lia|]. specialize (IH f). lia. Qed.
Lemma zsum_le : forall n f g, (forall i, 0 <= i < Z.of_nat n -> f i <= g i) -> zsum n f <= zsum n g.
Proof. induction n as [|n IH]; intros f g H; cbn [zsum]; [lia|]. specialize (IH f g). pose proof (H (Z.of_nat n) ltac:(lia)).
  assert (zsum n f <= zsum n g) by (apply IH; intros; apply H; lia). lia. Qed.
Lemma zsum_weight : forall n c, length c = n -> zsum n (fun i => Z.abs (at_ c (Z.to_nat i))) = weight c.
Proof.
  intros n c. revert n. induction c as [|x c IH] using rev_ind; intros n L; [subst; reflexivity|].
  rewrite app_length in L. cbn [length] in L. destruct n as [|n]; [lia|]. cbn [zsum].
  rewrite (zsum_ext n _ (fun i => Z.abs (at_ c (Z.to_nat i)))).
  - rewrite (IH n) by lia. rewrite Nat2Z.id. unfold at_. rewrite app_nth2 by lia. replace (n - length c)%nat with O by lia. cbn [nth].
    unfold weight. rewrite map_app. unfold zlist_sum. rewrite fold_right_app. cbn [map fold_right].
    generalize (map Z.abs c). intro l. generalize (Z.abs x). intro y. clear. induction l as [|z l IH]; cbn [fold_right]; lia.
  - intros i Hi. unfold at_. rewrite app_nth1 by lia. reflexivity.
Qed.
Lemma ext_bound : forall a B k, length a = 256%nat -> (forall i, (i < 256)%nat -> Z.abs (at_ a i) <= B) ->
  -256 < k < 256 -> Z.abs (ext 256 a k) <= B.
Proof.
  intros a B k L H Hk. destruct (Z.le_gt_cases 0 k).
  - rewrite ext_in by lia. apply (H (Z.to_nat k)). lia.
  - rewrite ext_neg by lia. rewrite Z.abs_opp. apply (H (Z.to_nat (k + Z.of_nat 256))). lia.
Qed.
Theorem dil_challenge_product : forall c a B k, length c = 256%nat -> length a = 256%nat -> (k < 256)%nat ->
  (forall i, (i < 256)%nat -> Z.abs (at_ a i) <= B) -> Z.abs (negacyclic 256 c a k) <= weight c * B.
Proof.
  intros c a B k Lc La Hk H. rewrite negacyclic_nconv by exact Hk. unfold nconv.
  eapply Z.le_trans; [apply zsum_abs|]. rewrite <- (zsum_weight 256 c Lc). rewrite <- zsum_scal_r.
  apply zsum_le. intros i Hi. rewrite Z.abs_mul. rewrite (ext_in 256 c i) by lia. fold (at_ c (Z.to_nat i)).
  apply Z.mul_le_mono_nonneg_l; [lia|]. apply ext_bound; auto. lia.
Qed.
