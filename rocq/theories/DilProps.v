(** * DilProps: the properties of Dilithium2 (C43 onwards). *)
From Coq Require Import ZArith List Lia Bool.
From Verif Require Import Base Bits SaberPoly Ring SaberRing DilArith DilNtt DilNttProof DilNttEval DilNttSpec
  DilPoly DilPack DilCodec DilCodec2 DilHint DilOps DilSample DilRound DilSign DilCorrect.
Import ListNotations.
Open Scope Z_scope.
Local Opaque root positions ev.

(** ** Budgets: more never changes a result *)
Theorem dil_keypair_mono : forall f f' X coins ks, (f <= f')%nat ->
  keypair_det f X coins = CRet ks -> keypair_det f' X coins = CRet ks.
Proof.
  intros f f' X coins ks H. revert ks. change (refines (keypair_det f X coins) (keypair_det f' X coins)).
  unfold keypair_det. apply refines_bind; [apply matrix_expand_mono; exact H|]. intros mat _.
  apply refines_bind; [apply uniform_eta_vec_mono; exact H|]. intros s1 _.
  apply refines_bind; [apply uniform_eta_vec_mono; exact H|]. intros s2 _. apply refines_refl.
Qed.
Ltac same_bind := apply refines_bind; [apply refines_refl|intros ? _].
Lemma sign_attempt_mono : forall f f' X mat s1 s2 t0 mu rp n, (f <= f')%nat ->
  refines (sign_attempt f X mat s1 s2 t0 mu rp n) (sign_attempt f' X mat s1 s2 t0 mu rp n).
Proof.
  intros f f' X mat s1 s2 t0 mu rp n H. unfold sign_attempt. do 5 same_bind.
  apply refines_bind; [apply refines_refl|]. intros [w1 w0] _.
  apply refines_bind; [apply poly_challenge_mono; exact H|]. intros c _. apply refines_refl.
Qed.
Lemma sign_loop_mono : forall a a' f f' X mat s1 s2 t0 mu rp n, (a <= a')%nat -> (f <= f')%nat ->
  refines (sign_loop a f X mat s1 s2 t0 mu rp n) (sign_loop a' f' X mat s1 s2 t0 mu rp n).
Proof.
  induction a as [|a IH]; intros a' f f' X mat s1 s2 t0 mu rp n Ha Hf; [intros ? E; discriminate E|].
  destruct a' as [|a']; [lia|]. cbn [sign_loop]. apply refines_bind; [apply sign_attempt_mono; exact Hf|].
  intros [sig|] _; [apply refines_refl|]. apply IH; [lia|exact Hf].
Qed.
Theorem dil_sign_mono : forall a a' f f' X m sk sig, (a <= a')%nat -> (f <= f')%nat ->
  sign_signature a f X m sk = CRet sig -> sign_signature a' f' X m sk = CRet sig.
Proof.
  intros a a' f f' X m sk sig Ha Hf. revert sig.
  change (refines (sign_signature a f X m sk) (sign_signature a' f' X m sk)). unfold sign_signature.
  destruct (unpack_sk sk) as [[[[[rho tr] key] t0] s1] s2].
  apply refines_bind; [apply matrix_expand_mono; exact Hf|]. intros mat _. do 3 same_bind.
  apply sign_loop_mono; assumption.
Qed.
Theorem dil_verify_mono : forall f f' X sig m pk b, (f <= f')%nat ->
  verify_signature f X sig m pk = CRet b -> verify_signature f' X sig m pk = CRet b.
Proof.
  intros f f' X sig m pk b H. revert b. change (refines (verify_signature f X sig m pk) (verify_signature f' X sig m pk)).
  unfold verify_signature. destruct (negb _); [apply refines_refl|]. destruct (unpack_pk pk) as [rho t1].
  destruct (unpack_sig sig) as [[[c z] h]|]; [|apply refines_refl].
  apply refines_bind; [apply refines_refl|]. intros [|] _; [apply refines_refl|].
  apply refines_bind; [apply poly_challenge_mono; exact H|]. intros cp _.
  apply refines_bind; [apply matrix_expand_mono; exact H|]. intros mat _. apply refines_refl.
Qed.
(** A deterministic signer: whatever budgets are used, the signature is the same. *)
Theorem dil_sign_deterministic : forall a a' f f' X m sk sig sig',
  sign_signature a f X m sk = CRet sig -> sign_signature a' f' X m sk = CRet sig' -> sig = sig'.
Proof.
  intros a a' f f' X m sk sig sig' H H'.
  apply (dil_sign_mono a (Nat.max a a') f (Nat.max f f')) in H; [|lia|lia].
  apply (dil_sign_mono a' (Nat.max a a') f' (Nat.max f f')) in H'; [|lia|lia]. congruence.
Qed.
Theorem dil_verify_deterministic : forall f f' X sig m pk b b',
  verify_signature f X sig m pk = CRet b -> verify_signature f' X sig m pk = CRet b' -> b = b'.
Proof.
  intros f f' X sig m pk b b' H H'.
  apply (dil_verify_mono f (Nat.max f f')) in H; [|lia]. apply (dil_verify_mono f' (Nat.max f f')) in H'; [|lia]. congruence.
Qed.

(** ** No undefined behaviour *)
Theorem dil_keypair_defined : forall f X coins, keypair_det f X coins <> CUB.
Proof. intros f X coins. destruct (keypair_ok f X coins) as [->|(a & -> & _)]; discriminate. Qed.
Theorem dil_sign_defined : forall a f X m sk, length sk = 2560%nat -> sign_signature a f X m sk <> CUB.
Proof. intros a f X m sk L. destruct (sign_signature_ok a f X m sk L) as [->|(s & -> & _)]; discriminate. Qed.
Theorem dil_verify_defined : forall f X sig m pk, length pk = 1312%nat -> is_bytes sig -> verify_signature f X sig m pk <> CUB.
Proof. intros f X sig m pk L B. destruct (verify_ok f X sig m pk L B) as [->|(s & -> & _)]; discriminate. Qed.

(** ** Shapes *)
Theorem dil_keypair_sizes : forall f X coins pk sk, keypair_det f X coins = CRet (pk, sk) ->
  length pk = 1312%nat /\ length sk = 2560%nat.
Proof.
  intros f X coins pk sk H. pose proof (safe_inv _ _ _ (keypair_ok f X coins) H) as K. cbn [fst snd] in K.
  destruct K as (rho & key & mat & t1 & t0 & s1 & s2 & _ & Lr & Lk & _ & _ & V1 & V2 & W1 & W0 & -> & -> & _).
  split; [apply pack_pk_length; assumption|]. apply pack_sk_length; auto using H256_length.
  - eapply vec4_impl; [|exact V1]. unfold eta_range. intros; lia.
  - eapply vec4_impl; [|exact V2]. unfold eta_range. intros; lia.
Qed.

Theorem dil_signature_shape : forall a f X m sk sig, length sk = 2560%nat -> sign_signature a f X m sk = CRet sig ->
  length sig = 2420%nat /\ exists c z h, unpack_sig sig = Some (c, z, h) /\ length c = 32%nat /\
    vec4 (fun x => Z.abs x < GAMMA1 - BETA) z /\ length h = 4%nat /\ hint_vec h /\
    (length (flat_map positions h) <= OMEGA)%nat.
Proof.
  intros a f X m sk sig L H. pose proof (safe_inv _ _ _ (sign_signature_ok a f X m sk L) H) as A. cbv beta in A.
  destruct A as (rho & tr & key & t0 & s1 & s2 & mat & _ & _ & _ & A).
  destruct A as (ct & c & z & h & w1 & a0 & g & Es & Ect & _ & Vz & Lh & Vh & Ho & _).
  assert (Lct : length ct = 32%nat) by (rewrite Ect; apply H256_length).
  assert (Vz' : vec4 z_range z).
  { eapply vec4_impl; [|exact Vz]. unfold z_range, GAMMA1, BETA. intros x Hx. lia. }
  destruct (unpack_pack_sig ct z h Lct Vz' Lh Vh Ho) as (sig' & Es' & Ls & U).
  assert (sig' = sig) as -> by congruence. split; [exact Ls|]. exists ct, z, h. auto 10.
Qed.

(** ** Completeness *)
Theorem dil_complete : forall f1 a f2 f3 X coins pk sk m sig,
  keypair_det f1 X coins = CRet (pk, sk) -> sign_signature a f2 X m sk = CRet sig -> (f2 <= f3)%nat ->
  verify_signature f3 X sig m pk = CRet true.
Proof.
  intros f1 a f2 f3 X coins pk sk m sig HK HS F3.
  destruct (dil_keypair_sizes _ _ _ _ _ HK) as [Lpk Lsk].
  pose proof (safe_inv _ _ _ (keypair_ok f1 X coins) HK) as K. cbn [fst snd] in K.
  destruct K as (rho & key & mat & t1 & t0 & s1 & s2 & _ & Lr & Lk & Em & M & V1 & V2 & W1 & W0 & Epk & Esk & KE).
  pose proof (safe_inv _ _ _ (sign_signature_ok a f2 X m sk Lsk) HS) as A. cbv beta in A.
  destruct A as (rho' & tr & key' & t0' & s1' & s2' & mat' & U & Em' & M' & A).
  assert (U' : unpack_sk sk = (rho, H256 X 64 pk, key, t0, s1, s2)).
  { rewrite Esk. apply unpack_pack_sk; auto using H256_length.
    - eapply vec4_impl; [|exact V1]. unfold eta_range. intros; lia.
    - eapply vec4_impl; [|exact V2]. unfold eta_range. intros; lia. }
  rewrite U' in U.
  repeat (apply pair_equal_spec in U; let H := fresh in destruct U as [U H]; symmetry in H). symmetry in U. subst rho' tr key' t0' s1' s2'.
  assert (mat' = mat) as ->.
  { apply (matrix_expand_mono f2 (Nat.max f1 f2)) in Em'; [|lia]. apply (matrix_expand_mono f1 (Nat.max f1 f2)) in Em; [|lia]. congruence. }
  destruct A as (ct & c & z & h & w1 & a0 & g & Es & Ect & Ec & Vz & Lh & Vh & Ho & Vw & Va & Ah & Lg & Eg & EVg).
  assert (Lct : length ct = 32%nat) by (rewrite Ect; apply H256_length).
  assert (Vz' : vec4 z_range z).
  { eapply vec4_impl; [|exact Vz]. unfold z_range, GAMMA1, BETA. intros x Hx. lia. }
  destruct (unpack_pack_sig ct z h Lct Vz' Lh Vh Ho) as (sig' & Es' & Ls & Us).
  assert (sig' = sig) as -> by congruence. clear Es'.
  assert (Up : unpack_pk pk = (rho, t1)) by (rewrite Epk; apply unpack_pack_pk; assumption).
  apply (dil_verify_mono f2 f3); [exact F3|].
  destruct (verify_run f2 X sig m pk rho t1 ct z h c mat Ls Up W1 Us Vz Ec Em') as (w & [Sw Ew] & ->).
  assert (UH : polyveck_use_hint w h = CRet w1).
  { apply vec_use_hint_eq; [exact Sw|apply hint_rows_256; assumption| |].
    - apply vec4_at in Vw. eapply vec_impl; [|exact Vw]. intros x [L _]; exact L.
    - apply vec4_at in Vw. apply vec4_at in Va. intros i Hi p Hp. rewrite Ah by assumption.
      destruct Vw as [_ Vw]. destruct (Vw i Hi) as [_ Vw']. pose proof (Vw' p Hp) as Hw.
      destruct Va as [_ Va]. destruct (Va i Hi) as [_ Va']. pose proof (Va' p Hp) as Ha.
      destruct Sw as [_ Sw]. destruct (Sw i Hi) as [_ Sw']. pose proof (Sw' p Hp) as Hs.
      cbv beta in Ha. apply hint_recovers; [exact Hw|unfold GAMMA2, BETA in *; lia|exact Hs|].
      eapply eqq_trans; [|apply Eg; assumption].
      apply ev_inj; [|exact Hp]. intros q Hq.
      eapply eqq_trans; [apply Ew; assumption|]. apply eqq_sym. eapply eqq_trans; [apply EVg; assumption|].
      pose proof (KE i Hi q Hq) as G. revert G.
      generalize (mrow mat z i q) (ev q c) (mrow mat s1 i q) (ev q (vat s2 i)) (ev q (vat t0 i)) (ev q (vat t1 i)).
      intros mz ec ms es e0 e1 [k E]. exists (ec * k). replace (ms + es) with (e1 * 8192 + e0 - k * Q) by lia. ring. }
  rewrite UH. cbn [cbind]. rewrite (firstn_all2 pk) by lia. rewrite <- Ect, beq_refl. reflexivity.
Qed.

(** Signed messages open to the message. *)
Theorem dil_sign_open : forall f1 a f2 f3 X coins pk sk m sm,
  keypair_det f1 X coins = CRet (pk, sk) -> crypto_sign a f2 X m sk = CRet sm -> (f2 <= f3)%nat ->
  crypto_sign_open f3 X sm pk = CRet (Some m).
Proof.
  intros f1 a f2 f3 X coins pk sk m sm HK HS F3. unfold crypto_sign in HS.
  destruct (sign_signature a f2 X m sk) as [sig| |] eqn:E; try discriminate HS. cbn [cbind] in HS.
  assert (sm = sig ++ m) as -> by congruence.
  destruct (dil_keypair_sizes _ _ _ _ _ HK) as [_ Lsk].
  destruct (dil_signature_shape a f2 X m sk sig Lsk E) as [Ls _].
  pose proof (dil_complete f1 a f2 f3 X coins pk sk m sig HK E F3) as V.
  unfold crypto_sign_open. rewrite app_length, Ls.
  destruct (Nat.ltb_spec (2420 + length m) 2420); [lia|].
  rewrite firstn_app, skipn_app, Ls, Nat.sub_diag. rewrite (firstn_all2 sig) by lia. rewrite (skipn_all2 sig) by lia.
  change (firstn 0 m) with (@nil Z). change (skipn 0 m) with m. rewrite app_nil_r. cbn [app]. rewrite V. reflexivity.
Qed.
(** ... and only what verifies opens. *)
Theorem dil_open_iff : forall f X sm pk m, crypto_sign_open f X sm pk = CRet (Some m) <->
  exists sig, sm = sig ++ m /\ length sig = 2420%nat /\ verify_signature f X sig m pk = CRet true.
Proof.
  intros f X sm pk m. unfold crypto_sign_open. split.
  - destruct (Nat.ltb_spec (length sm) 2420); [discriminate|].
    destruct (verify_signature f X (firstn 2420 sm) (skipn 2420 sm) pk) as [b| |] eqn:E; try discriminate. cbn [cbind].
    destruct b; [|discriminate]. intro G. assert (m = skipn 2420 sm) as -> by congruence.
    exists (firstn 2420 sm). split; [symmetry; apply firstn_skipn|]. split; [rewrite firstn_length; lia|exact E].
  - intros (sig & -> & L & V). rewrite app_length, L. destruct (Nat.ltb_spec (2420 + length m) 2420); [lia|].
    rewrite firstn_app, skipn_app, L, Nat.sub_diag. rewrite (firstn_all2 sig) by lia. rewrite (skipn_all2 sig) by lia.
    change (firstn 0 m) with (@nil Z). change (skipn 0 m) with m. rewrite app_nil_r. cbn [app]. rewrite V. reflexivity.
Qed.

(** ** What is accepted *)
Theorem dil_verify_iff : forall f X sig m pk b, length pk = 1312%nat -> is_bytes sig ->
  verify_signature f X sig m pk = CRet b -> (b = true <-> valid f X sig m pk).
Proof. intros f X sig m pk b L B H. exact (safe_inv _ _ _ (verify_ok f X sig m pk L B) H). Qed.

(** Encodings are unique: changing any byte of a signature changes what it decodes to (or makes
    it undecodable), so there is exactly one accepted byte string per decoded signature. *)
Theorem dil_encoding_unique : forall s1 s2, length s1 = 2420%nat -> length s2 = 2420%nat -> is_bytes s1 -> is_bytes s2 ->
  unpack_sig s1 <> None -> unpack_sig s1 = unpack_sig s2 -> s1 = s2.
Proof.
  intros s1 s2 L1 L2 B1 B2 N E. destruct (unpack_sig s1) as [x|] eqn:U1; [|contradiction].
  apply (unpack_sig_inj s1 s2 x); auto.
Qed.

(** The high part [w1] that the verifier recomputes from a signature and a public key.  The
    message does not occur in it. *)
Definition sig_w1 (f : nat) (X : xof) (sig pk : bytes) (w1 : list poly) : Prop :=
  exists c z h cp mat w, unpack_sig sig = Some (c, z, h) /\ vec4 (fun x => Z.abs x < GAMMA1 - BETA) z /\
    poly_challenge f X c = CRet cp /\ polyvec_matrix_expand f X (fst (unpack_pk pk)) = CRet mat /\
    recomputed mat z (snd (unpack_pk pk)) cp w /\ polyveck_use_hint w h = CRet w1.
Lemma sig_w1_unique : forall f X sig pk w1 w1', sig_w1 f X sig pk w1 -> sig_w1 f X sig pk w1' -> w1 = w1'.
Proof.
  intros f X sig pk w1 w1' (c & z & h & cp & mat & w & U & _ & Ec & Em & R & Ew) (c' & z' & h' & cp' & mat' & w' & U' & _ & Ec' & Em' & R' & Ew').
  rewrite U in U'. apply Some_triple_inj in U'. destruct U' as (<- & <- & <-).
  rewrite Ec in Ec'. assert (cp' = cp) as -> by congruence. assert (mat' = mat) as -> by congruence.
  rewrite (recomputed_unique _ _ _ _ _ _ R' R) in Ew'. congruence.
Qed.
Lemma unpack_sig_c : forall sig c z h, unpack_sig sig = Some (c, z, h) -> c = firstn 32 sig.
Proof.
  intros sig c z h. unfold unpack_sig. destruct (unpack_hint (skipn 2336 sig)); [|discriminate]. intro E.
  apply Some_triple_inj in E. destruct E as (<- & _ & _). reflexivity.
Qed.
(** Acceptance, with everything but the last hash independent of the message. *)
Theorem dil_verify_split : forall f X sig m pk b, length pk = 1312%nat -> is_bytes sig -> verify_signature f X sig m pk = CRet b ->
  (b = true <-> length sig = 2420%nat /\ exists w1, sig_w1 f X sig pk w1 /\
     firstn 32 sig = H256 X 32 (H256 X 64 (H256 X 64 pk ++ m) ++ polyveck_pack_w1 w1)).
Proof.
  intros f X sig m pk b L B H. rewrite (dil_verify_iff _ _ _ _ _ _ L B H). unfold valid, sig_w1. split.
  - intros (Ls & c & z & h & cp & mat & w & w1 & U & N & Ec & Em & R & Ew & G). split; [exact Ls|]. exists w1.
    split; [exists c, z, h, cp, mat, w; auto 10|]. rewrite <- (unpack_sig_c _ _ _ _ U). exact G.
  - intros (Ls & w1 & (c & z & h & cp & mat & w & U & N & Ec & Em & R & Ew) & G). split; [exact Ls|].
    exists c, z, h, cp, mat, w, w1. repeat (split; [assumption|]). rewrite (unpack_sig_c _ _ _ _ U). exact G.
Qed.
(** One signature for two different messages: either the two named inputs [tr ++ m] and
    [tr ++ m'] collide under the 64-byte hash, or the two (then different) inputs
    [mu(m) ++ w1] and [mu(m') ++ w1] collide under the 32-byte one, on the signature's first 32
    bytes, where [w1] is the one value the verifier recomputes from this signature and key. *)
Theorem dil_message_binding : forall f X sig m m' pk, length pk = 1312%nat -> is_bytes sig ->
  verify_signature f X sig m pk = CRet true -> verify_signature f X sig m' pk = CRet true -> m <> m' ->
  let mu x := H256 X 64 (H256 X 64 pk ++ x) in
  mu m = mu m' \/
  (mu m <> mu m' /\ exists w1, sig_w1 f X sig pk w1 /\
     H256 X 32 (mu m ++ polyveck_pack_w1 w1) = firstn 32 sig /\ H256 X 32 (mu m' ++ polyveck_pack_w1 w1) = firstn 32 sig).
Proof.
  intros f X sig m m' pk L B H H' N mu. subst mu. cbv beta.
  destruct (proj1 (dil_verify_split _ _ _ _ _ _ L B H) eq_refl) as (_ & w1 & W & G).
  destruct (proj1 (dil_verify_split _ _ _ _ _ _ L B H') eq_refl) as (_ & w1' & W' & G').
  rewrite <- (sig_w1_unique _ _ _ _ _ _ W W') in G'.
  destruct (list_eq_dec Z.eq_dec (H256 X 64 (H256 X 64 pk ++ m)) (H256 X 64 (H256 X 64 pk ++ m'))) as [E|E]; [left; exact E|].
  right. split; [exact E|]. exists w1. split; [exact W|]. split; symmetry; assumption.
Qed.
(** Conversely the signature carries over exactly when that last hash agrees. *)
Theorem dil_message_transfer : forall f X sig m m' pk b, length pk = 1312%nat -> is_bytes sig ->
  verify_signature f X sig m pk = CRet true -> verify_signature f X sig m' pk = CRet b ->
  exists w1, sig_w1 f X sig pk w1 /\
    (b = true <-> H256 X 32 (H256 X 64 (H256 X 64 pk ++ m') ++ polyveck_pack_w1 w1) = H256 X 32 (H256 X 64 (H256 X 64 pk ++ m) ++ polyveck_pack_w1 w1)).
Proof.
  intros f X sig m m' pk b L B H H'.
  destruct (proj1 (dil_verify_split _ _ _ _ _ _ L B H) eq_refl) as (Ls & w1 & W & G). exists w1. split; [exact W|].
  rewrite (dil_verify_split _ _ _ _ _ _ L B H'). rewrite <- G. split.
  - intros (_ & w1' & W' & G'). rewrite (sig_w1_unique _ _ _ _ _ _ W W'). symmetry. exact G'.
  - intro E. split; [exact Ls|]. exists w1. split; [exact W|]. symmetry. exact E.
Qed.

(** ** The rejection loop *)
Lemma attempt_period : forall f X mat s1 s2 t0 mu rp n,
  sign_attempt f X mat s1 s2 t0 mu rp (n + 16384) = sign_attempt f X mat s1 s2 t0 mu rp n.
Proof.
  intros. unfold sign_attempt.
  assert (E : polyvecl_uniform_gamma1 X rp (n + 16384) = polyvecl_uniform_gamma1 X rp n).
  { unfold polyvecl_uniform_gamma1. apply map_ext. intro i. f_equal. unfold u16.
    replace (4 * (n + 16384) + Z.of_nat i) with (4 * n + Z.of_nat i + 1 * 65536) by ring. apply Z.mod_add. discriminate. }
  rewrite E. reflexivity.
Qed.
Lemma attempt_u16 : forall f X mat s1 s2 t0 mu rp n,
  sign_attempt f X mat s1 s2 t0 mu rp (u16 n) = sign_attempt f X mat s1 s2 t0 mu rp n.
Proof.
  intros. unfold sign_attempt.
  assert (E : polyvecl_uniform_gamma1 X rp (u16 n) = polyvecl_uniform_gamma1 X rp n).
  { unfold polyvecl_uniform_gamma1. apply map_ext. intro i. f_equal. unfold u16.
    rewrite (Z.div_mod n 65536) at 2 by discriminate.
    replace (4 * (65536 * (n / 65536) + n mod 65536) + Z.of_nat i)
      with (4 * (n mod 65536) + Z.of_nat i + (4 * (n / 65536)) * 65536) by ring. symmetry. apply Z.mod_add. discriminate. }
  rewrite E. reflexivity.
Qed.
Lemma loop_attempts : forall a f X mat s1 s2 t0 mu rp n sig,
  sign_loop a f X mat s1 s2 t0 mu rp n = CRet sig <->
  exists k, (k < a)%nat /\ sign_attempt f X mat s1 s2 t0 mu rp (n + Z.of_nat k) = CRet (Some sig) /\
    forall j, (j < k)%nat -> sign_attempt f X mat s1 s2 t0 mu rp (n + Z.of_nat j) = CRet None.
Proof.
  induction a as [|a IH]; intros f X mat s1 s2 t0 mu rp n sig; cbn [sign_loop].
  - split; [discriminate|]. intros (k & K & _). lia.
  - assert (SH : forall j, sign_attempt f X mat s1 s2 t0 mu rp (u16 (n + 1) + Z.of_nat j) =
                           sign_attempt f X mat s1 s2 t0 mu rp (n + Z.of_nat (S j))).
    { intro j. rewrite <- attempt_u16. rewrite <- (attempt_u16 _ _ _ _ _ _ _ _ (n + Z.of_nat (S j))). f_equal.
      unfold u16. rewrite Zplus_mod_idemp_l. f_equal. lia. }
    destruct (sign_attempt f X mat s1 s2 t0 mu rp n) as [[s|]| |] eqn:E; cbn [cbind].
    + split.
      * intro G. exists O. rewrite Z.add_0_r. split; [lia|]. split; [congruence|]. intros; lia.
      * intros ([|k] & K & G & N); [rewrite Z.add_0_r in G; congruence|].
        specialize (N O ltac:(lia)). rewrite Z.add_0_r in N. congruence.
    + rewrite IH. clear IH. revert E SH. generalize (sign_attempt f X mat s1 s2 t0 mu rp). intros A E SH. split.
      * intros (k & K & G & N). exists (S k). split; [lia|]. split; [rewrite <- SH; exact G|].
        intros [|j] J; [rewrite Z.add_0_r; exact E|]. rewrite <- SH. apply N. lia.
      * intros ([|k] & K & G & N); [rewrite Z.add_0_r in G; congruence|].
        exists k. split; [lia|]. split; [rewrite SH; exact G|]. intros j J. rewrite SH. apply N. lia.
    + split; [discriminate|]. intros ([|k] & K & G & N); [rewrite Z.add_0_r in G; congruence|].
      specialize (N O ltac:(lia)). rewrite Z.add_0_r in N. congruence.
    + split; [discriminate|]. intros ([|k] & K & G & N); [rewrite Z.add_0_r in G; congruence|].
      specialize (N O ltac:(lia)). rewrite Z.add_0_r in N. congruence.
Qed.
(** The 16-bit nonce makes attempt 16384 a repetition of attempt 0: a signer that ever returns
    does so within 16384 attempts. *)
Theorem dil_sign_attempts : forall a f X m sk sig, sign_signature a f X m sk = CRet sig ->
  sign_signature (Z.to_nat 16384) f X m sk = CRet sig.
Proof.
  intros a f X m sk sig. unfold sign_signature.
  destruct (unpack_sk sk) as [[[[[rho tr] key] t0] s1] s2].
  destruct (polyvec_matrix_expand f X rho) as [mat| |]; try discriminate. cbn [cbind].
  destruct (polyvec_ntt s1) as [s1h| |]; try discriminate. cbn [cbind].
  destruct (polyvec_ntt s2) as [s2h| |]; try discriminate. cbn [cbind].
  destruct (polyvec_ntt t0) as [t0h| |]; try discriminate. cbn [cbind].
  set (mu := H256 X 64 (tr ++ m)). set (rp := H256 X 64 (key ++ repeat 0 32 ++ mu)). clearbody mu rp.
  rewrite !loop_attempts. intros (k & K & G & N).
  destruct (Z_lt_ge_dec (Z.of_nat k) 16384) as [H|H]; [exists k; split; [lia|auto]|].
  exfalso. specialize (N (k - Z.to_nat 16384)%nat ltac:(lia)).
  replace (0 + Z.of_nat k) with (0 + Z.of_nat (k - Z.to_nat 16384) + 16384) in G by lia.
  rewrite attempt_period in G. congruence.
Qed.

(** ** The wrapper *)
Theorem dil_detached_roundtrip : forall b s, sig_from_bytes b = Some s -> sig_as_bytes s = b /\ length (fst s) = 2420%nat.
Proof.
  intros b s. unfold sig_from_bytes, sig_as_bytes. destruct (Nat.ltb_spec 2420 (length b)); [discriminate|]. intro E.
  assert (s = (b ++ repeat 0 (2420 - length b), length b)) as -> by congruence. cbn [fst snd].
  rewrite firstn_app, Nat.sub_diag, firstn_all, app_nil_r. split; [reflexivity|]. rewrite app_length, repeat_length. lia.
Qed.
Theorem dil_detached_accepts : forall b, sig_from_bytes b <> None <-> (length b <= 2420)%nat.
Proof.
  intro b. unfold sig_from_bytes. destruct (Nat.ltb_spec 2420 (length b)); split; try lia; try congruence; intros; discriminate.
Qed.
(** A detached signature shorter than 2420 bytes parses but never verifies. *)
Theorem dil_detached_short : forall f X b s m pk, sig_from_bytes b = Some s -> length b <> 2420%nat ->
  verify_detached f X s m pk = CRet false.
Proof.
  intros f X b s m pk E N. unfold verify_detached. rewrite (proj1 (dil_detached_roundtrip b s E)).
  unfold verify_signature. apply Nat.eqb_neq in N. rewrite N. reflexivity.
Qed.
(** The norm check: it passes exactly when the bound is at most (q-1)/8 and every coefficient is
    smaller in absolute value; it never overflows on coefficients below 2^30. *)
Theorem dil_norm_check_exact : forall a B, length a = 256%nat -> Forall (fun x => Z.abs x < 1073741824) a ->
  exists b, poly_chknorm a B = CRet b /\ (b = false <-> B <= (8380417 - 1) / 8 /\ Forall (fun x => Z.abs x < B) a).
Proof.
  intros a B L F. change ((8380417 - 1) / 8) with 1047552. destruct (Z.le_gt_cases B 1047552) as [H|H].
  - destruct (poly_chknorm_ok a B) as [b [E I]]; [split; [exact L|]; intros p Hp; rewrite (pol_Forall (fun x => Z.abs x < 1073741824) a L) in F; specialize (F p Hp); lia|exact H|].
    exists b. split; [exact E|]. rewrite I, (pol_Forall (fun x => Z.abs x < B) a L). tauto.
  - exists true. split; [|split; [discriminate|lia]]. unfold poly_chknorm. change ((Q - 1) / 8) with 1047552.
    destruct (Z.ltb_spec 1047552 B); [reflexivity|lia].
Qed.
Example norm_check_both : poly_chknorm (repeat 5 256) 6 = CRet false /\ poly_chknorm (repeat (-5) 256) 5 = CRet true.
Proof. split; reflexivity. Qed.
