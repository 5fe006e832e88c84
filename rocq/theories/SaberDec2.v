(** * SaberDec2: reconciliation, correctness of decryption, invariance under serialisation. *)
From Coq Require Import ZArith List Lia Bool.
From Verif Require Import Base Bits SaberPoly SaberCodec2 SaberCodec3 Ring SaberRing SaberKem
  SaberVec SaberNoise SaberSpec SaberDec.
Import ListNotations.
Open Scope Z_scope.
Local Opaque star E pmul padd pzero.

(** Number of bits dropped by the hint. *)
Definition cexp (I : saber_impl) : Z := EPS_P - sRECON I - 1.

(** The hint that the decoder gets for a hint x at position k. *)
Definition hint_back (I : saber_impl) (k : nat) (x : Z) : Z :=
  if (sK I =? 2)%nat && (k mod 8 =? 5)%nat then damage3 x else x.

Lemma recon_roundtrip : forall I p k, param_set I -> length p = DEG ->
  (forall j, (j < DEG)%nat -> 0 <= at_ p j < 2 ^ (sRECON I + 1)) -> (k < DEG)%nat ->
  length (recon_unpack I (recon_pack I p)) = DEG /\
  at_ (recon_unpack I (recon_pack I p)) k = hint_back I k (at_ p k).
Proof.
  intros I p k HI HL HR Hk. destruct HI; cbn [recon_unpack recon_pack LightSaber Saber FireSaber].
  - rewrite from3_read3 by exact HL. split; [unfold mapi; rewrite mapi_from_length; exact HL|].
    unfold at_, mapi. rewrite (nth_mapi_from hint3_back p 0 k 0 0) by lia. cbn [plus].
    fold (at_ p k). specialize (HR k Hk). cbn [sRECON LightSaber] in HR.
    change (2 ^ (2 + 1)) with 8 in HR.
    unfold hint3_back, hint_back. cbn [sK LightSaber Nat.eqb andb].
    rewrite (Z.mod_small (at_ p k) 8) by exact HR. reflexivity.
  - rewrite from4_read4 by exact HL. split; [rewrite map_length; exact HL|].
    rewrite map_at by lia. specialize (HR k Hk). apply Z.mod_small. exact HR.
  - rewrite from6_read6 by exact HL. split; [rewrite map_length; exact HL|].
    rewrite map_at by lia. specialize (HR k Hk). apply Z.mod_small. exact HR.
Qed.

Lemma hint_coeff : forall x c, 0 <= c -> (x .& (P - 1)) >> c = (x mod 1024) / 2 ^ c.
Proof.
  intros x c Hc. rewrite Z.shiftr_div_pow2 by exact Hc. f_equal.
  change (P - 1) with (2 ^ 10 - 1). rewrite land_mask_mod by lia. reflexivity.
Qed.

Lemma cexp_range : forall I, param_set I -> 4 <= cexp I <= 7 /\ sRECON I + 1 = 10 - cexp I.
Proof. intros I []; cbn; lia. Qed.

Lemma hint_range : forall I x, param_set I -> 0 <= (x mod 1024) / 2 ^ cexp I < 2 ^ (sRECON I + 1).
Proof.
  intros I x HI. pose proof (Z.mod_pos_bound x 1024 ltac:(lia)).
  destruct HI; cbn; Z.div_mod_to_equations; lia.
Qed.

Lemma recon_coeff_any : forall I h v, param_set I ->
  recon_coeff I h v = ((v - h * 2 ^ cexp I + 256 - 2 ^ (cexp I - 1)) mod 1024) / 512.
Proof.
  intros I h v HI. unfold recon_coeff.
  set (tmp := u16 (u16 (v - shl16 h (EPS_P - sRECON I - 1))
      + (Z.shiftl 1 (EPS_P - 2) - Z.shiftl 1 (EPS_P - 2 - sRECON I)))).
  assert (E1 : (tmp >> (EPS_P - 1)) .& 1 = (tmp mod 1024) / 512).
  { rewrite Z.shiftr_div_pow2 by (unfold EPS_P; lia). change (2 ^ (EPS_P - 1)) with 512.
    change 1 with (2 ^ 1 - 1) at 1. rewrite land_mask_mod by lia. change (2 ^ 1) with 2.
    clearbody tmp. Z.div_mod_to_equations. lia. }
  rewrite E1. f_equal. unfold tmp. rewrite u16_mod by (try lia; apply d10).
  rewrite <- Zplus_mod_idemp_l. rewrite u16_mod by (try lia; apply d10).
  rewrite Zplus_mod_idemp_l. 
  replace (v - h * 2 ^ cexp I + 256 - 2 ^ (cexp I - 1))
    with ((v - h * 2 ^ cexp I) + (256 - 2 ^ (cexp I - 1))) by lia.
  assert (E2 : Z.shiftl 1 (EPS_P - 2) - Z.shiftl 1 (EPS_P - 2 - sRECON I) = 256 - 2 ^ (cexp I - 1))
    by (destruct HI; reflexivity).
  rewrite E2. rewrite <- Zplus_mod_idemp_l. symmetry. rewrite <- Zplus_mod_idemp_l. symmetry.
  f_equal. f_equal. unfold shl16. fold (cexp I).
  rewrite Z.shiftl_mul_pow2 by (destruct (cexp_range I HI); lia).
  rewrite <- Zminus_mod_idemp_r. rewrite u16_mod by (try lia; apply d10).
  apply Zminus_mod_idemp_r.
Qed.

Lemma recon_coeff_spec : forall I h v, param_set I -> 0 <= h < 64 ->
  recon_coeff I h v = ((v - h * 2 ^ cexp I + 256 - 2 ^ (cexp I - 1)) mod 1024) / 512.
Proof. intros I h v HI _. apply recon_coeff_any. exact HI. Qed.

(** The hint as a value of the integer recovered at position k. *)
Definition dec_coeff (I : saber_impl) (k : nat) (mp v1 : Z) : Z :=
  ((v1 - hint_back I k ((mp mod 1024) / 2 ^ cexp I) * 2 ^ cexp I + 256 - 2 ^ (cexp I - 1)) mod 1024) / 512.

Lemma damage3_range : forall x, 0 <= x < 8 -> 0 <= damage3 x < 8.
Proof. intros x H. unfold damage3. Z.div_mod_to_equations. lia. Qed.
Lemma hint_back_range : forall I k x, param_set I -> 0 <= x < 2 ^ (sRECON I + 1) ->
  0 <= hint_back I k x < 64.
Proof.
  intros I k x HI Hx. unfold hint_back.
  destruct HI; cbn [sK sRECON LightSaber Saber FireSaber Nat.eqb andb] in *.
  - change (2 ^ (2 + 1)) with 8 in Hx. pose proof (damage3_range x Hx).
    destruct (k mod 8 =? 5)%nat; lia.
  - change (2 ^ (3 + 1)) with 16 in Hx. lia.
  - change (2 ^ (5 + 1)) with 64 in Hx. lia.
Qed.

Lemma recon_at : forall I mp v1 k, param_set I -> length mp = DEG -> length v1 = DEG -> (k < DEG)%nat ->
  at_ (recon I (recon_data_gen I mp) v1) k = dec_coeff I k (at_ mp k) (at_ v1 k).
Proof.
  intros I mp v1 k HI Lm Lv Hk.
  assert (Q : forall j, (j < DEG)%nat ->
    at_ (pshr (reduce P mp) (EPS_P - sRECON I - 1)) j = (at_ mp j mod 1024) / 2 ^ cexp I).
  { intros j Hj. unfold pshr, reduce. rewrite map_map, map_at by lia.
    apply hint_coeff. destruct (cexp_range I HI). unfold cexp in *. lia. }
  assert (LQ : length (pshr (reduce P mp) (EPS_P - sRECON I - 1)) = DEG)
    by (unfold pshr, reduce; rewrite !map_length; exact Lm).
  destruct (recon_roundtrip I _ k HI LQ) as [R1 R2]; auto.
  { intros j Hj. rewrite Q by exact Hj. apply hint_range. exact HI. }
  unfold recon, recon_data_gen. rewrite map2_at by (try rewrite R1; lia).
  rewrite R2, Q by exact Hk. apply recon_coeff_spec; auto.
  apply hint_back_range; auto. apply hint_range. exact HI.
Qed.

Lemma recon_length : forall I mp v1, param_set I -> length mp = DEG -> length v1 = DEG ->
  length (recon I (recon_data_gen I mp) v1) = DEG.
Proof.
  intros I mp v1 HI Lm Lv. unfold recon. rewrite map2_length, Lv.
  assert (L : length (recon_unpack I (recon_data_gen I mp)) = DEG).
  { unfold recon_data_gen. destruct HI; cbn [recon_unpack LightSaber Saber FireSaber];
      apply fill_poly_length. }
  rewrite L. apply Nat.min_id.
Qed.

(** ** Margins *)
(** The bound on |noise| (in units of 2^-13) at position k: 8 * (256 - 2^(c-1)), except that
    LightSaber positions 5 mod 8 only tolerate 8 * 64. *)
Definition margin (I : saber_impl) (k : nat) : Z :=
  if (sK I =? 2)%nat && (k mod 8 =? 5)%nat then 512 else 8 * (256 - 2 ^ (cexp I - 1)).

Lemma mod_eq_ex : forall a b m, m <> 0 -> a mod m = b mod m -> exists t, a = b + m * t.
Proof.
  intros a b m Hm H. exists (a / m - b / m).
  pose proof (Z.div_mod a m Hm). pose proof (Z.div_mod b m Hm). nia.
Qed.

Lemma dec_coeff_ok : forall I k bit v' v1 eta, param_set I -> bit = 0 \/ bit = 1 ->
  (8 * (v' - v1)) mod 8192 = eta mod 8192 ->
  Z.abs eta <= margin I k ->
  dec_coeff I k (512 * bit + v') v1 = bit.
Proof.
  intros I k bit v' v1 eta HI Hb He Hm.
  apply mod_eq_ex in He; [|lia]. destruct He as [t Ht].
  unfold dec_coeff, margin, hint_back in *.
  destruct HI; cbn [sK LightSaber Saber FireSaber Nat.eqb andb] in *.
  - change (cexp LightSaber) with 7 in *. change (2 ^ 7) with 128 in *. change (2 ^ (7 - 1)) with 64 in *.
    destruct (k mod 8 =? 5)%nat.
    + unfold damage3. set (w := 512 * bit + v') in *.
      pose proof (Z.div_mod w 1024 ltac:(lia)) as D1.
      pose proof (Z.mod_pos_bound w 1024 ltac:(lia)) as B1.
      set (wr := w mod 1024) in *. set (wq := w / 1024) in *.
      pose proof (Z.div_mod wr 128 ltac:(lia)) as D2.
      pose proof (Z.mod_pos_bound wr 128 ltac:(lia)) as B2.
      set (h := wr / 128) in *. set (r := wr mod 128) in *.
      assert (Hh : 0 <= h < 8) by lia.
      assert (C : exists d, -1 <= d <= 1 /\ h - h mod 2 + h / 4 = h + d)
        by (exists (h / 4 - h mod 2); Z.div_mod_to_equations; lia).
      destruct C as [d [Hd ->]].
      assert (X : exists X, 0 <= X < 512 /\ exists u,
         v1 - (h + d) * 128 + 256 - 64 = 512 * bit + X + 1024 * u).
      { exists (192 + r - 128 * d - (v' - v1 - 1024 * t)). split; [lia|].
        exists (wq - bit - t). lia. }
      destruct X as [X [HX [u ->]]].
      replace (512 * bit + X + 1024 * u) with (512 * bit + X + u * 1024) by lia.
      rewrite Z_mod_plus_full. Z.div_mod_to_equations. lia.
    + set (w := 512 * bit + v') in *.
      pose proof (Z.div_mod w 1024 ltac:(lia)) as D1.
      pose proof (Z.mod_pos_bound w 1024 ltac:(lia)) as B1.
      set (wr := w mod 1024) in *. set (wq := w / 1024) in *.
      pose proof (Z.div_mod wr 128 ltac:(lia)) as D2.
      pose proof (Z.mod_pos_bound wr 128 ltac:(lia)) as B2.
      set (h := wr / 128) in *. set (r := wr mod 128) in *.
      assert (X : exists X, 0 <= X < 512 /\ exists u,
         v1 - h * 128 + 256 - 64 = 512 * bit + X + 1024 * u).
      { exists (192 + r - (v' - v1 - 1024 * t)). split; [lia|].
        exists (wq - bit - t). lia. }
      destruct X as [X [HX [u ->]]].
      replace (512 * bit + X + 1024 * u) with (512 * bit + X + u * 1024) by lia.
      rewrite Z_mod_plus_full. Z.div_mod_to_equations. lia.
  - change (cexp Saber) with 6 in *. change (2 ^ 6) with 64 in *. change (2 ^ (6 - 1)) with 32 in *.
    set (w := 512 * bit + v') in *.
    pose proof (Z.div_mod w 1024 ltac:(lia)) as D1.
    pose proof (Z.mod_pos_bound w 1024 ltac:(lia)) as B1.
    set (wr := w mod 1024) in *. set (wq := w / 1024) in *.
    pose proof (Z.div_mod wr 64 ltac:(lia)) as D2.
    pose proof (Z.mod_pos_bound wr 64 ltac:(lia)) as B2.
    set (h := wr / 64) in *. set (r := wr mod 64) in *.
    assert (X : exists X, 0 <= X < 512 /\ exists u,
       v1 - h * 64 + 256 - 32 = 512 * bit + X + 1024 * u).
    { exists (224 + r - (v' - v1 - 1024 * t)). split; [lia|].
      exists (wq - bit - t). lia. }
    destruct X as [X [HX [u ->]]].
    replace (512 * bit + X + 1024 * u) with (512 * bit + X + u * 1024) by lia.
    rewrite Z_mod_plus_full. Z.div_mod_to_equations. lia.
  - change (cexp FireSaber) with 4 in *. change (2 ^ 4) with 16 in *. change (2 ^ (4 - 1)) with 8 in *.
    set (w := 512 * bit + v') in *.
    pose proof (Z.div_mod w 1024 ltac:(lia)) as D1.
    pose proof (Z.mod_pos_bound w 1024 ltac:(lia)) as B1.
    set (wr := w mod 1024) in *. set (wq := w / 1024) in *.
    pose proof (Z.div_mod wr 16 ltac:(lia)) as D2.
    pose proof (Z.mod_pos_bound wr 16 ltac:(lia)) as B2.
    set (h := wr / 16) in *. set (r := wr mod 16) in *.
    assert (X : exists X, 0 <= X < 512 /\ exists u,
       v1 - h * 16 + 256 - 8 = 512 * bit + X + 1024 * u).
    { exists (248 + r - (v' - v1 - 1024 * t)). split; [lia|].
      exists (wq - bit - t). lia. }
    destruct X as [X [HX [u ->]]].
    replace (512 * bit + X + 1024 * u) with (512 * bit + X + u * 1024) by lia.
    rewrite Z_mod_plus_full. Z.div_mod_to_equations. lia.
Qed.

Lemma dec_coeff_mod : forall I k mp mp' v1 v1', 
  mp mod 1024 = mp' mod 1024 -> v1 mod 1024 = v1' mod 1024 ->
  dec_coeff I k mp v1 = dec_coeff I k mp' v1'.
Proof.
  intros I k mp mp' v1 v1' H1 H2. unfold dec_coeff. rewrite H1. f_equal.
  generalize (hint_back I k (mp' mod 1024 / 2 ^ cexp I) * 2 ^ cexp I) as x.
  generalize (2 ^ (cexp I - 1)) as y. intros.
  replace (v1 - x + 256 - y) with (v1 + (256 - x - y)) by lia.
  replace (v1' - x + 256 - y) with (v1' + (256 - x - y)) by lia.
  rewrite <- Zplus_mod_idemp_l, H2, Zplus_mod_idemp_l. reflexivity.
Qed.

(** ** Message bits *)
Lemma nth_flat_bits : forall m k, (k < length m * 8)%nat ->
  nth k (flat_map byte_bits m) 0 = msg_bit m k.
Proof.
  intros m k. unfold msg_bit. revert k. induction m as [|b m IH]; intros k Hk; [cbn in Hk; lia|].
  cbn [flat_map]. destruct (Nat.lt_ge_cases k 8) as [L|L].
  - rewrite app_nth1 by exact L. rewrite Nat.div_small, Nat.mod_small by exact L. cbn [nth].
    unfold byte_bits. rewrite (nth_map_in _ (seq 0 8) k 0 0%nat) by (rewrite seq_length; exact L).
    rewrite seq_nth by exact L. cbn [plus].
    rewrite <- Z.testbit_spec' by lia. reflexivity.
  - rewrite app_nth2 by exact L. change (length (byte_bits b)) with 8%nat.
    rewrite IH by (cbn [length] in Hk; lia).
    replace k with ((k - 8) + 1 * 8)%nat at 3 4 by lia.
    rewrite Nat.div_add, Nat.mod_add by lia. rewrite Nat.add_1_r. reflexivity.
Qed.
Lemma msg_bit_01 : forall m k, msg_bit m k = 0 \/ msg_bit m k = 1.
Proof. intros. unfold msg_bit. pose proof (Z.mod_pos_bound (nth (k / 8) m 0 / 2 ^ Z.of_nat (k mod 8)) 2). lia. Qed.

Lemma from_msg_at : forall m k, length m = MESSAGEBYTES -> (k < DEG)%nat ->
  at_ (from_msg m) k = 512 * msg_bit m k.
Proof.
  intros m k Hm Hk. rewrite from_msg_bits by exact Hm.
  assert (L : (k < length m * 8)%nat) by (rewrite Hm; exact Hk).
  rewrite map_at by (rewrite byte_bits_length; exact L).
  f_equal. apply nth_flat_bits. exact L.
Qed.
Lemma from_msg_length : forall m, length (from_msg m) = DEG.
Proof. intro. apply fill_poly_length. Qed.

(** A polynomial of bits is read as the message with these bits. *)
Lemma read_msg_of_bits : forall p m, length m = MESSAGEBYTES -> is_bytes m -> length p = DEG ->
  (forall k, (k < DEG)%nat -> at_ p k = msg_bit m k) -> read_bytes_msg p = m.
Proof.
  intros p m Hm Hb Lp H. replace p with (flat_map byte_bits m); [apply read_msg_bits; exact Hb|].
  assert (L : length (flat_map byte_bits m) = DEG) by (rewrite byte_bits_length, Hm; reflexivity).
  apply poly_ext; [congruence|]. intros k Hk. rewrite L in Hk. rewrite H by exact Hk.
  apply nth_flat_bits. rewrite Hm. exact Hk.
Qed.

(** Conversely a wrong bit gives a different message. *)
Lemma pack_msg_bits_back : forall c, length c = 8%nat -> Forall (fun x => x = 0 \/ x = 1) c ->
  flat_map byte_bits (pack_msg c) = c.
Proof.
  intros c H HF. do 8 (destruct c as [|? c]; [discriminate H|]). destruct c; [|discriminate H].
  repeat match goal with HF : Forall _ (_ :: _) |- _ => inversion HF; clear HF; subst end.
  repeat match goal with HF : _ = 0 \/ _ = 1 |- _ => destruct HF; subst end; reflexivity.
Qed.
Lemma bits_read_msg : forall p, length p = DEG -> Forall (fun x => x = 0 \/ x = 1) p ->
  flat_map byte_bits (read_bytes_msg p) = p.
Proof.
  intros p Lp HF. unfold read_bytes_msg.
  assert (L8 : length p = (32 * 8)%nat) by exact Lp.
  destruct (chunks_concat 8 32 p ltac:(lia) L8) as [HC [_ HL]].
  pose proof (Forall_chunks _ 8 32 p ltac:(lia) L8 HF) as HB.
  rewrite <- HC at 2. clear HC. induction (chunks_exact 8 p) as [|c cs IH]; [reflexivity|].
  inversion HL; inversion HB; subst. cbn [flat_map concat]. rewrite flat_map_app.
  rewrite pack_msg_bits_back by assumption. f_equal. apply IH; assumption.
Qed.

(** ** Encryption and decryption *)
Lemma enc_split : forall h I m r pk, param_set I ->
  firstn (POLYVECCOMPRESSEDBYTES I) (indcpa_enc h I m r pk) =
    read_mod_p (rnd_vec (mat_mul_transpose (gen_matrix h I (pk_seed pk)) (gen_secret h I r))) /\
  skipn (POLYVECCOMPRESSEDBYTES I) (indcpa_enc h I m r pk) =
    recon_data_gen I (padd (from_msg m) (vmul (pk_vec pk) (gen_secret h I r))).
Proof.
  intros h I m r pk HI. unfold indcpa_enc. rewrite rnd_vec_eq.
  set (x := read_mod_p _). assert (L : length x = POLYVECCOMPRESSEDBYTES I).
  { unfold x. rewrite (read_mod_p_length (sK I)), polyvec_size; auto.
    apply rnd_vec_wf, mat_mul_transpose_wf, gen_matrix_wf. }
  rewrite <- L. split.
  - rewrite firstn_app, firstn_all, Nat.sub_diag. cbn [firstn]. apply app_nil_r.
  - rewrite skipn_app, skipn_all, Nat.sub_diag. reflexivity.
Qed.

(** Congruence of vmul under reduction of the left or right vector. *)
Lemma V_vmap_mod : forall K v M m j, wf_vec K v -> (j < K)%nat -> m <> 0 -> (m | M) ->
  cong m (V (vmap_mod M v) j) (V v j).
Proof.
  intros K v M m j Hv Hj Hm Hd. unfold V, vmap_mod.
  rewrite (nth_map_in (map (fun x => x mod M)) v j [] []) by (rewrite (proj1 Hv); exact Hj).
  apply E_map_mod; auto. eapply wf_in_length; [exact Hv|]. apply nth_In. rewrite (proj1 Hv). exact Hj.
Qed.
Lemma vmul_cong : forall K a a' b b' m, m <> 0 -> (m | 65536) ->
  wf_vec K a -> wf_vec K a' -> wf_vec K b -> wf_vec K b' ->
  (forall j, (j < K)%nat -> cong m (V a j) (V a' j)) ->
  (forall j, (j < K)%nat -> cong m (V b j) (V b' j)) ->
  forall k, (k < DEG)%nat -> at_ (vmul a b) k mod m = at_ (vmul a' b') k mod m.
Proof.
  intros K a a' b b' m Hm Hd Ha Ha' Hb Hb' H1 H2 k Hk.
  rewrite <- !(E_at _ _ Hk).
  assert (C : cong m (E (vmul a b)) (E (vmul a' b'))); [|apply C].
  eapply cong_trans; [apply (E_vmul m Hm Hd K); [apply Ha|apply Hb]|].
  apply cong_sym. eapply cong_trans; [apply (E_vmul m Hm Hd K); [apply Ha'|apply Hb']|].
  apply cong_dot; intros; apply cong_sym; auto.
Qed.

Local Transparent padd.
Lemma padd_at : forall a b k, length a = DEG -> length b = DEG -> (k < DEG)%nat ->
  at_ (padd a b) k = u16 (at_ a k + at_ b k).
Proof. intros a b k Ha Hb Hk. unfold padd. rewrite map2_at by lia. reflexivity. Qed.
Local Opaque padd.

(** The noise of encrypting with randomness r to the key pair from (seed, ns). *)
Definition enc_noise (h : saber_prims) (I : saber_impl) (seed ns r : bytes) (k : nat) : Z :=
  noise (sK I) (gen_matrix h I seed)
    (map (map signed16) (gen_secret h I ns)) (map (map signed16) (gen_secret h I r)) k.

Lemma dec_poly_at : forall h I seed ns m r k,
  param_set I -> length m = MESSAGEBYTES -> (k < DEG)%nat ->
  let pk := fst (indcpa_keypair h I seed ns) in
  let sk := snd (indcpa_keypair h I seed ns) in
  let ct := indcpa_enc h I m r pk in
  exists p v' v1, indcpa_dec I sk ct = read_bytes_msg p /\ length p = DEG /\
    (forall k, (k < DEG)%nat -> at_ p k = dec_coeff I k (512 * msg_bit m k + at_ v' k) (at_ v1 k)) /\
    v' = vmul (pk_vec pk) (gen_secret h I r) /\
    (forall k, (k < DEG)%nat ->
      (8 * (at_ v' k - at_ v1 k)) mod 8192 = enc_noise h I seed ns r k mod 8192).
Proof.
  intros h I seed ns m r k HI Hm Hk pk sk ct.
  destruct (enc_split h I m r pk HI) as [F S]. fold ct in F, S.
  set (A := gen_matrix h I seed) in *. set (s := gen_secret h I ns) in *.
  set (t := gen_secret h I r) in *.
  assert (WA : wf_matrix (sK I) A) by apply gen_matrix_wf.
  assert (Ws : wf_vec (sK I) s) by (apply gen_secret_wf; exact HI).
  assert (Wt : wf_vec (sK I) t) by (apply gen_secret_wf; exact HI).
  set (b' := rnd_vec (mat_mul_transpose A t)).
  assert (Wb' : wf_vec (sK I) b') by (apply rnd_vec_wf, mat_mul_transpose_wf, WA).
  set (b := rnd_vec (mat_mul A s)).
  assert (Epk : pk_vec pk = b) by (unfold pk, indcpa_keypair; cbn [fst pk_vec]; apply rnd_vec_eq).
  set (v' := vmul (pk_vec pk) t). set (mp := padd (from_msg m) v').
  set (v1 := vmul (vmap_mod 1024 b') s).
  exists (recon I (recon_data_gen I mp) v1), v', (vmul b' s).
  assert (Lv' : length v' = DEG) by apply vmul_wf.
  assert (Lv1 : length v1 = DEG) by apply vmul_wf.
  assert (Lmp : length mp = DEG) by (apply padd_wf; [apply from_msg_length|exact Lv']).
  split; [|split; [|split; [|split]]].
  - unfold indcpa_dec. rewrite F, S. cbn [pk_seed]. change (pk_seed pk) with seed. fold A t. fold b'.
    rewrite mod_p_roundtrip by exact Wb'. reflexivity.
  - apply recon_length; auto.
  - intros j Hj. rewrite recon_at by auto. apply dec_coeff_mod.
    + unfold mp. rewrite padd_at by (auto; apply from_msg_length).
      rewrite u16_mod by (try lia; apply d10). rewrite from_msg_at by auto. reflexivity.
    + unfold v1. apply (vmul_cong (sK I)); auto; try lia; try apply d10.
      * apply vmap_mod_wf; auto. lia.
      * intros i Hi. apply (V_vmap_mod (sK I)); auto; try lia. exists 1. reflexivity.
      * intros. apply cong_refl.
  - reflexivity.
  - intros j Hj. unfold v', enc_noise. rewrite Epk. apply noise_eq; auto.
Qed.

Theorem dec_correct : forall h I seed ns m r, param_set I -> length m = MESSAGEBYTES -> is_bytes m ->
  (forall k, (k < 256)%nat -> Z.abs (enc_noise h I seed ns r k) <= margin I k) ->
  let pk := fst (indcpa_keypair h I seed ns) in
  let sk := snd (indcpa_keypair h I seed ns) in
  indcpa_dec I sk (indcpa_enc h I m r pk) = m.
Proof.
  intros h I seed ns m r HI Hm Hb HN pk sk.
  destruct (dec_poly_at h I seed ns m r 0 HI Hm DEG_pos) as [p [v' [v1 [EQ [Lp [Hp [_ Hn]]]]]]].
  unfold pk, sk. rewrite EQ. apply read_msg_of_bits; auto. intros k Hk. rewrite Hp by exact Hk.
  apply (dec_coeff_ok I k _ _ _ (enc_noise h I seed ns r k) HI (msg_bit_01 m k)); [apply Hn|apply HN]; exact Hk.
Qed.
