(** * IbkeToy: instances of the laws the IBKE theorems assume, so that none of them is vacuous. *)
From Coq Require Import ZArith List Lia Bool String Eqdep_dec.
From Verif Require Import Base SaberKem SaberSpec SaberWitness Crypto Symmetric PropsSym Driver Pakes PropsPake Ibkes IbkeSpec
  PropsSigDh PropsHmqv PropsFg PropsSigma.
Import ListNotations.
Open Scope Z_scope.

(** The toy primitives have correct signatures and a commuting Diffie-Hellman. *)
Lemma bytes_of_firstn : forall k n f, (k <= n)%nat -> firstn k (bytes_of n f) = bytes_of k f.
Proof.
  intros k n f H. unfold bytes_of, draw. cbn [fst]. rewrite firstn_map. f_equal.
  replace n with (k + (n - k))%nat by lia. rewrite seq_app, firstn_app, seq_length, Nat.sub_diag.
  cbn [firstn]. rewrite app_nil_r. apply firstn_all2. rewrite seq_length. lia.
Qed.
Theorem toy_sig_correct : forall s, sig_correct toy_prims s.
Proof.
  intros s coins m L. split; [|reflexivity]. unfold verify, sign. cbn [toy_prims p_verify p_sign].
  cbn [toy_prims p_sig_pk p_sig_sk].
  rewrite (bytes_of_firstn 32 (pk_len s)), (bytes_of_firstn 32 (sk_len s)) by (destruct s; cbn; lia). apply beq_refl.
Qed.
Theorem toy_dh_commutes : dh_commutes toy_prims.
Proof.
  intros a b. unfold x_dh, x_pub. apply bytes_of_ext. intros i Hi. cbn [toy_prims p_x_dh p_x_pub].
  destruct i as [|i]; [|reflexivity]. unfold toy_first.
  assert (F : forall x, hd 0 (bytes_of 32 (fun i => match i with O => x | S _ => 0 end)) = u8 x) by reflexivity.
  rewrite !F. unfold u8. rewrite !Z.add_mod_idemp_r by lia. f_equal. lia.
Qed.

(** The integers modulo 256 as a group with encodings in 32 bytes. *)
Definition tpoint := {z : Z | (z mod 256 =? z) = true}.
Lemma tp_ok : forall z, (z mod 256 mod 256 =? z mod 256) = true.
Proof. intro z. rewrite Z.mod_mod by lia. apply Z.eqb_refl. Qed.
Definition tp (z : Z) : tpoint := exist _ (z mod 256) (tp_ok z).
Definition tp_decode (b : bytes) : option tpoint :=
  match b with
  | z :: r => if beq b (z mod 256 :: repeat 0 31) then Some (tp z) else None
  | [] => None
  end.
Definition toy_group : group := {|
  scalar := Z; point := tpoint;
  s_add := Z.add; s_mul := Z.mul;
  s_wide := fun b => toy_sum b;
  g_base := tp;
  g_add := fun a b => tp (proj1_sig a + proj1_sig b);
  g_mul := fun a k => tp (proj1_sig a * k);
  g_compress := fun p => fun i => match i with O => proj1_sig p | S _ => 0 end;
  g_decompress := tp_decode
|}.
Lemma tp_eq : forall a b : tpoint, proj1_sig a = proj1_sig b -> a = b.
Proof.
  intros [a ha] [b hb] E. cbn in E. subst b. f_equal. apply UIP_dec. decide equality.
Qed.
Lemma tp_compress : forall p : tpoint, compress toy_group p = proj1_sig p :: repeat 0 31.
Proof.
  intros [z hz]. unfold compress. cbn [toy_group g_compress proj1_sig].
  apply Z.eqb_eq in hz. change (u8 z :: repeat 0 31 = z :: repeat 0 31). unfold u8. rewrite hz. reflexivity.
Qed.
Theorem toy_group_laws : group_laws toy_group.
Proof.
  constructor; cbn [toy_group s_add s_mul g_base g_add g_mul g_decompress scalar point]; intros; try lia.
  - apply tp_eq. cbn [tp proj1_sig]. rewrite <- Z.add_mod by lia. reflexivity.
  - apply tp_eq. cbn [tp proj1_sig]. rewrite Z.mul_mod_idemp_l by lia. reflexivity.
  - rewrite tp_compress. destruct p as [z hz]. cbn [proj1_sig]. unfold tp_decode. apply Z.eqb_eq in hz as hz'. rewrite hz', beq_refl.
    f_equal. apply tp_eq. cbn. exact hz'.
  - destruct b as [|z r]; [discriminate|]. unfold tp_decode in H0.
    destruct (beq (z :: r) (z mod 256 :: repeat 0 31)) eqn:B; [|discriminate]. apply beq_spec in B. injection H0 as <-.
    rewrite tp_compress. cbn [tp proj1_sig]. symmetry. exact B.
Qed.

(** The agreement theorems apply: laws and enrolled users exist. *)
Example sig_dh_meets : sig_correct toy_prims Ed25519 /\ dh_commutes toy_prims.
Proof. split; [apply toy_sig_correct|exact toy_dh_commutes]. Qed.
Example hmqv_fg_meet : group_laws toy_group /\
  (forall msk id, exists cert usk, enrolled (IdHmqvC toy_prims toy_group) msk id cert usk) /\
  (forall msk id, exists cert usk, enrolled (FgIbkeC toy_prims toy_group) msk id cert usk).
Proof.
  split; [exact toy_group_laws|]. split; intros msk id; [apply hm_enrolled_exists|apply fg_enrolled_exists].
Qed.
Example sigma_meets : forall ty, sig_correct toy_prims ty /\
  (forall h msk id, exists cert usk, enrolled (IdSigmaR ty toy_prims h) msk id cert usk) /\
  exists h tape, kem_ok h (snd (tape 0%nat : rng * rng)) (snd (tape 1%nat)).
Proof.
  intro ty. split; [apply toy_sig_correct|]. split; [intros; apply sm_enrolled_exists|].
  destruct cake_agreement_meets as [h [os0 [os1 N]]].
  exists h, (fun n => match n with O => (os0, os0) | S _ => (os1, os1) end). apply kem_ok_of_noise, N.
Qed.
(** A certificate that the toy Ed25519 rejects, so C29 fails for ID-SIGMA-R. *)
Theorem sigma_finalize_refuted_toy : forall h, ~ ibke_fin_iff_done (IdSigmaR Ed25519 toy_prims h).
Proof.
  intro h. destruct (gen_main (IdSigmaR Ed25519 toy_prims h) (fun _ => 0)) as [[mpk msk] r] eqn:GM.
  apply (sigma_finalize_refuted Ed25519 toy_prims h _ mpk msk r (repeat 0 32) (repeat 1 32) (repeat 2 64) GM).
  - repeat split.
  - vm_compute in GM. injection GM as <- _ _. vm_compute. reflexivity.
Qed.
