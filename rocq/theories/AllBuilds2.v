(** * AllBuilds2: a signature belongs to one key and one message, whatever builds check it (C90).

    The verifiers of the three builds recompute different things (the AVX2 build rounds hinted parts
    another way and checks no norm, the AArch64 build may sample another matrix), but each compares
    the first 32 bytes of the signature with a hash of the key and the message. *)
From Coq Require Import ZArith List Lia Bool.
From Verif Require Import Keccak KeccakSpec KeccakPerm KeccakSponge KeccakProps PropsKeccak.
From Verif Require Import Base Bits DilArith DilNtt DilPoly DilPack DilSample DilSign DilCorrect DilProps DilSpec DilSpec2 DilShake DilShake2 DilWitness.
From Verif Require Import KeccakX4 AvxMachine AvxSign AvxSample AvxSignOk AvxSignOk2 AvxSpec AvxShake AvxShake2 AvxKeypair.
From Verif Require Import A64Sample A64Sign A64SignOk A64SignOk2 A64Props A64Keccak A64Fips A64Shake A64Keypair AllBuilds.
Import ListNotations.
Open Scope Z_scope.
Local Opaque verify_signature64_c verify_signature_avx_c verify_c verify_signature fips_xof H256 SHAKE256 poly_challenge matrix_expand64.

Lemma bind_ret : forall A B (r : crun A) (k : A -> crun B) b, cbind r k = CRet b -> exists a, r = CRet a /\ k a = CRet b.
Proof. intros A B [a| | ] k b H; cbn in H; try discriminate. exists a. auto. Qed.
Lemma beq_true : forall a b, beq a b = true -> a = b.
Proof. intros a b H. apply beq_spec. exact H. Qed.

(** ** Each verifier compares the signature with a hash *)
Lemma unpack_sig_c : forall sig c z h, unpack_sig sig = Some (c, z, h) -> c = firstn 32 sig.
Proof.
  intros sig c z h U. unfold unpack_sig in U. destruct (unpack_hint _) as [h'|]; [|discriminate].
  assert (E : forall (a b : bytes) (x y u v : polyvec), Some (a, x, u) = Some (b, y, v) -> a = b) by (intros; congruence).
  apply E in U. rewrite <- U. reflexivity.
Qed.
Lemma ret_true : forall b, CRet b = CRet true -> b = true. Proof. intros b H. congruence. Qed.
Lemma closes64 : forall e fuel X sig m pk, length pk = 1312%nat -> verify_signature64 e fuel X sig m pk = CRet true ->
  length sig = 2420%nat /\ exists w1, firstn 32 sig = H256 X 32 (H256 X 64 (H256 X 64 pk ++ m) ++ polyveck_pack_w1 w1).
Proof.
  intros e fuel X sig m pk L H. unfold verify_signature64 in H. destruct (length sig =? 2420)%nat eqn:Ls; cbn [negb] in H; [|discriminate].
  apply Nat.eqb_eq in Ls. split; [exact Ls|].
  apply bind_ret in H as ([rho t1] & _ & H).
  destruct (unpack_sig sig) as [[[c z] h]|] eqn:U; [|discriminate].
  apply unpack_sig_c in U. rewrite (firstn_all2 pk) in H by lia.
  apply bind_ret in H as (bad & _ & H). destruct (bad : bool); [discriminate|]. cbv zeta in H.
  do 12 (apply bind_ret in H as (? & _ & H)). apply bind_ret in H as (w1 & _ & H).
  exists w1. apply ret_true in H. apply beq_spec in H. rewrite <- U. exact H.
Qed.
(** The relation between a signature, a message and a key that no verifier can do without. *)
Definition names (X : xof) (sig m pk w : bytes) : Prop :=
  is_bytes w /\ firstn 32 sig = H256 X 32 (H256 X 64 (H256 X 64 pk ++ m) ++ w).
Lemma accepted_names : forall b fuel sig m pk, build_ok b -> length pk = 1312%nat -> is_bytes pk -> is_bytes sig -> is_bytes m ->
  verify_of b fuel sig m pk = CRet true -> length sig = 2420%nat /\ exists w, names fips_xof sig m pk w.
Proof.
  intros [|e yr sig0|e h] fuel sig m pk Hb L BP BS BM H; cbn [verify_of build_ok] in *.
  - rewrite verify_fips in H by assumption.
    destruct (proj1 (dil_verify_split _ _ _ _ _ _ L BS H) eq_refl) as (Ls & w1 & _ & G).
    split; [exact Ls|]. exists (polyveck_pack_w1 w1). split; [apply w1_bytes|exact G].
  - destruct Hb as (He & Y & _). apply (avx_verify_c_spec e yr fuel sig m pk He Y L BP BS BM) in H.
    destruct H as (c & z & h & w & w1 & (Ls & U & _) & S1 & R1 & G). unfold closes in G. apply unpack_sig_c in U.
    split; [exact Ls|]. exists (polyveck_pack_w1 w1). split; [apply w1_bytes|rewrite <- U; exact G].
  - destruct Hb as (He & Hh). rewrite verify64_fips in H by assumption. destruct (closes64 _ _ _ _ _ _ L H) as (Ls & w1 & G).
    split; [exact Ls|]. exists (polyveck_pack_w1 w1). split; [apply w1_bytes|exact G].
Qed.
Lemma H256_shake : forall n x, is_bytes x -> bits_of_bytes (H256 fips_xof n x) = SHAKE256 (bits_of_bytes x) (8 * n).
Proof. intros n x Bx. rewrite <- shake256_fips by exact Bx. destruct (shake256_fips202 x n Bx) as (_ & _ & E). exact E. Qed.
Lemma app_eq_len : forall (a b c d : bytes), length a = length c -> a ++ b = c ++ d -> a = c /\ b = d.
Proof.
  induction a as [|x a IH]; intros b [|y c] d L E; try discriminate; [auto|]. cbn in L, E. injection L as L. injection E as -> E.
  destruct (IH _ _ _ L E) as [-> ->]. auto.
Qed.

(** A signature that a build accepts carries, in its first 32 bytes, the hash of this chain of
    hashes of the key and the message, and some bytes [w]. *)
Theorem accepted_signature_names : forall b fuel sig m pk, build_ok b -> length pk = 1312%nat -> is_bytes pk -> is_bytes sig -> is_bytes m ->
  verify_of b fuel sig m pk = CRet true ->
  length sig = 2420%nat /\ exists tr mu w, is_bytes tr /\ is_bytes mu /\ is_bytes w /\ length tr = 64%nat /\ length mu = 64%nat /\
    bits_of_bytes tr = SHAKE256 (bits_of_bytes pk) 512 /\
    bits_of_bytes mu = SHAKE256 (bits_of_bytes (tr ++ m)) 512 /\
    bits_of_bytes (firstn 32 sig) = SHAKE256 (bits_of_bytes (mu ++ w)) 256.
Proof.
  intros b fuel sig m pk Hb L BP BS BM H. destruct (accepted_names b fuel sig m pk Hb L BP BS BM H) as (Ls & w & BW & G).
  split; [exact Ls|]. assert (BT : is_bytes (H256 fips_xof 64 pk)) by apply H256_bytes.
  assert (B1 : is_bytes (H256 fips_xof 64 pk ++ m)) by (apply Forall_app; auto).
  assert (BU : is_bytes (H256 fips_xof 64 (H256 fips_xof 64 pk ++ m))) by apply H256_bytes.
  assert (B2 : is_bytes (H256 fips_xof 64 (H256 fips_xof 64 pk ++ m) ++ w)) by (apply Forall_app; auto).
  pose proof (H256_shake 64 _ BP) as E0. pose proof (H256_shake 64 _ B1) as E1. pose proof (H256_shake 32 _ B2) as E2.
  pose proof (H256_length fips_xof 64 pk) as L0. pose proof (H256_length fips_xof 64 (H256 fips_xof 64 pk ++ m)) as L1.
  exists (H256 fips_xof 64 pk), (H256 fips_xof 64 (H256 fips_xof 64 pk ++ m)), w. rewrite G. auto 10.
Qed.

(** ** Exclusive ownership *)
(** Two different inputs with one SHAKE256 output of [n] bits. *)
Definition shake_collision (n : nat) (x y : bytes) : Prop :=
  is_bytes x /\ is_bytes y /\ x <> y /\ SHAKE256 (bits_of_bytes x) n = SHAKE256 (bits_of_bytes y) n.
(** If one string is accepted under two keys, or for two messages, by the same or by different builds,
    with any randomness of the machine, then one of three named pairs is a collision of SHAKE256:
    the keys on 64 bytes, the key hashes and messages on 64 bytes, or the inputs of the challenge on
    32.  The public keys need not be generated ones. *)
Theorem exclusive_ownership : forall b b' fuel fuel' sig m m' pk pk', build_ok b -> build_ok b' ->
  length pk = 1312%nat -> is_bytes pk -> length pk' = 1312%nat -> is_bytes pk' -> is_bytes sig -> is_bytes m -> is_bytes m' ->
  verify_of b fuel sig m pk = CRet true -> verify_of b' fuel' sig m' pk' = CRet true -> (pk, m) <> (pk', m') ->
  exists tr tr' mu mu' w w',
    bits_of_bytes tr = SHAKE256 (bits_of_bytes pk) 512 /\ bits_of_bytes tr' = SHAKE256 (bits_of_bytes pk') 512 /\
    bits_of_bytes mu = SHAKE256 (bits_of_bytes (tr ++ m)) 512 /\ bits_of_bytes mu' = SHAKE256 (bits_of_bytes (tr' ++ m')) 512 /\
    (shake_collision 512 pk pk' \/ shake_collision 512 (tr ++ m) (tr' ++ m') \/ shake_collision 256 (mu ++ w) (mu' ++ w')).
Proof.
  intros b b' fuel fuel' sig m m' pk pk' Hb Hb' L BP L' BP' BS BM BM' H H' N.
  destruct (accepted_signature_names b fuel sig m pk Hb L BP BS BM H) as (_ & tr & mu & w & BT & BU & BW & LT & LU & E0 & E1 & E2).
  destruct (accepted_signature_names b' fuel' sig m' pk' Hb' L' BP' BS BM' H') as (_ & tr' & mu' & w' & BT' & BU' & BW' & LT' & LU' & E0' & E1' & E2').
  exists tr, tr', mu, mu', w, w'. repeat (split; [assumption|]). clear H H'.
  assert (A : forall a c : bytes, is_bytes a -> is_bytes c -> is_bytes (a ++ c)) by (intros; apply Forall_app; auto).
  destruct (list_eq_dec Z.eq_dec mu mu') as [Em|Em].
  - subst mu'. destruct (list_eq_dec Z.eq_dec (tr ++ m) (tr' ++ m')) as [Et|Et].
    + apply app_eq_len in Et; [|congruence]. destruct Et as [-> ->].
      left. repeat (split; [assumption|]). split; [congruence|]. congruence.
    + right. left. split; [auto|]. split; [auto|]. split; [exact Et|]. congruence.
  - right. right. split; [auto|]. split; [auto|]. split; [|congruence].
    intro E. apply app_eq_len in E; [|congruence]. destruct E as [E _]. exact (Em E).
Qed.

(** ** The premises are met *)
(** Every signature made by any build under a generated key is accepted by every build, so meets the
    premises of [accepted_signature_names] at any two builds. *)
Example names_meets : forall b2 b3 att f f' seed pk sk m sig, build_ok b2 -> build_ok b3 -> is_bytes seed -> is_bytes m ->
  keypair_c (S f) seed = CRet (pk, sk) -> six_blocks_suffice fips_xof (firstn 32 pk) -> sign_of b2 att (S f') m sk = CRet sig ->
  verify_of b3 (S f') sig m pk = CRet true /\ length pk = 1312%nat /\ is_bytes pk.
Proof.
  intros b2 b3 att f f' seed pk sk m sig H2 H3 B BM HK Six E. destruct (keypair_c_facts _ _ _ _ B HK) as (BP & _ & LP & _).
  destruct (all_builds_interoperate b2 b2 b2 b3 att f f' seed pk sk m H2 H2 H2 H3 B BM HK Six) as (_ & _ & _ & V). auto.
Qed.
