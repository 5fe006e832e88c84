(** * PropsPake: C19-C22 and the PAKE part of C37. *)
From Coq Require Import ZArith List Lia Bool String.
From Verif Require Import Base SaberPoly SaberKem SaberVec SaberDec SaberDec2 SaberFacts SaberSpec SaberWitness PropsSaber Crypto Symmetric PropsSym Driver Pakes.
Import ListNotations.
Open Scope Z_scope.

Local Opaque gen_matrix gen_secret indcpa_keypair indcpa_enc indcpa_dec pk_to_bytes indcpa_pk_from_bytes
  wide_block_encrypt wide_block_decrypt.

(* ---------------------------------------------------------------- C19 *)
(** The KEM decapsulates correctly when the key pair is generated from the randomness [os0]
    and the encapsulation uses [os1]. *)
Definition kem_ok (h : saber_prims) (os0 os1 : rng) : Prop :=
  let '(pk, sk, _) := keygen_ind_cpa h LightSaber os0 in
  let '(ss, ct, _) := encapsulate_ind_cpa h LightSaber os1 pk in
  decapsulate_ind_cpa LightSaber ct sk = ss.
(** It does whenever the noise of that ciphertext is within LightSaber's margin (C05). *)
Theorem kem_ok_of_noise : forall h os0 os1,
  noise_ok h LightSaber (bytes_at os0 0 32) (bytes_at os0 32 32) (bytes_at os1 32 32) -> kem_ok h os0 os1.
Proof.
  intros h os0 os1 N. unfold kem_ok. pose proof (ind_cpa_correct h LightSaber os0 os1 ps_light N) as C.
  destruct (keygen_ind_cpa h LightSaber os0) as [[pk sk] r]. destruct (encapsulate_ind_cpa h LightSaber os1 pk) as [[ss ct] r'].
  tauto.
Qed.

Lemma cake_key_ok : forall P d ssid pw, cake_key P d ssid pw = Ret (expand P (hash256 P pw) ([d] ++ ssid) 32).
Proof. intros. unfold cake_key. rewrite from_prk_ok by (rewrite hash256_length; lia). reflexivity. Qed.
Lemma ideal_roundtrip : forall P d ssid pw x, (32 <= List.length x)%nat ->
  exists y, ideal_cipher_encrypt P d ssid pw x = Ret y /\ ideal_cipher_decrypt P d ssid pw y = Ret x /\
            List.length y = List.length x.
Proof.
  intros. unfold ideal_cipher_encrypt, ideal_cipher_decrypt. rewrite cake_key_ok. cbn [obind].
  apply wbc_roundtrip. exact H.
Qed.
Lemma light_pk_bytes : INDCPA_PUBLICKEYBYTES LightSaber = 672%nat.
Proof. vm_compute. reflexivity. Qed.
Lemma light_ct_bytes : BYTES_CCA_DEC LightSaber = 736%nat.
Proof. vm_compute. reflexivity. Qed.
Local Opaque INDCPA_PUBLICKEYBYTES BYTES_CCA_DEC POLYVECCOMPRESSEDBYTES.
Lemma indcpa_pk_reload : forall h seed noise, List.length seed = 32%nat -> is_bytes seed ->
  List.length noise = 32%nat -> is_bytes noise ->
  let pk := fst (indcpa_keypair h LightSaber seed noise) in
  List.length (pk_to_bytes pk) = 672%nat /\
  exists pk', indcpa_pk_from_bytes LightSaber (pk_to_bytes pk) = Ret pk' /\
  forall m r, indcpa_enc h LightSaber m r pk' = indcpa_enc h LightSaber m r pk.
Proof.
  intros h seed noise L1 B1 L2 B2 pk.
  assert (W : wf_pk LightSaber pk) by (apply keypair_wf; auto; exact ps_light).
  split; [rewrite (pk_to_bytes_length LightSaber _ ps_light W); exact light_pk_bytes|].
  pose proof (pk_from_to LightSaber pk ps_light W) as E.
  exists {| pk_vec := vmap_mod 1024 (pk_vec pk); pk_seed := pk_seed pk |}. split.
  - unfold pk_from_bytes in E. rewrite (pk_to_bytes_length LightSaber _ ps_light W), Nat.eqb_refl in E.
    destruct (indcpa_pk_from_bytes _ _); [|discriminate]. cbn [obind] in E. congruence.
  - intros m r. apply enc_pk_mod; [exact ps_light|exact W].
Qed.

(** Whatever the password, ssid and randomness, the run completes with two messages and both
    sessions done; the responder's key is the 32 bytes it drew, the initiator's is what the
    KEM decapsulates, so the keys agree exactly when the KEM decapsulates correctly. *)
Theorem cake_run_completes : forall P h ssid pw rI rR tape sI sR rI' rR',
  pk_new (CakePake P h) rI ssid pw Initiator = Ret (sI, rI') ->
  pk_new (CakePake P h) rR ssid pw Responder = Ret (sR, rR') ->
  exists m1 m2 sI' sR' kI,
    honest_run (pake_machine (CakePake P h)) 4 tape sI sR = Res Completed [Some m1; Some m2; None] sI' sR' /\
    List.length m1 = 672%nat /\ List.length m2 = 736%nat /\
    pk_done (CakePake P h) sI' = true /\ pk_done (CakePake P h) sR' = true /\
    pk_fin (CakePake P h) sR' = Ret (bytes_at (snd (tape 1%nat)) 0 32) /\
    pk_fin (CakePake P h) sI' = Ret kI /\
    (kI = bytes_at (snd (tape 1%nat)) 0 32 <-> kem_ok h (snd (tape 0%nat)) (snd (tape 1%nat))).
Proof.
  intros P h ssid pw rI rR tape sI sR rI' rR' NI NR.
  cbn [CakePake pk_new] in NI, NR. unfold cake_new in NI, NR. injection NI as <- _. injection NR as <- _.
  set (os0 := snd (tape 0%nat)). set (os1 := snd (tape 1%nat)).
  unfold kem_ok. rewrite keygen_cpa_eq.
  destruct (indcpa_pk_reload h (bytes_at os0 0 32) (bytes_at os0 32 32)) as [LP [pk' [PK EQ]]];
    [apply bytes_at_ok..|].
  destruct (indcpa_keypair h LightSaber (bytes_at os0 0 32) (bytes_at os0 32 32)) as [pk sk] eqn:KG. cbn [fst snd] in *.
  destruct (ideal_roundtrip P 0 ssid pw (pk_to_bytes pk)) as [e1 [E1 [D1 L1]]]; [rewrite LP; lia|].
  assert (EN : forall q, encapsulate_ind_cpa h LightSaber os1 q =
     (bytes_at os1 0 32, indcpa_enc h LightSaber (bytes_at os1 0 32) (bytes_at os1 32 32) q, fun i => os1 (32 + (32 + i))%nat))
    by reflexivity.
  rewrite EN. set (ct := indcpa_enc h LightSaber (bytes_at os1 0 32) (bytes_at os1 32 32) pk).
  assert (LC : List.length ct = 736%nat).
  { unfold ct. rewrite (proj1 (enc_length h LightSaber (bytes_at os1 0 32) (bytes_at os1 32 32) pk ps_light)). exact light_ct_bytes. }
  specialize (EQ (bytes_at os1 0 32) (bytes_at os1 32 32)). fold ct in EQ. clearbody ct.
  destruct (ideal_roundtrip P 1 ssid pw ct) as [e2 [E2 [D2 L2]]]; [rewrite LC; lia|].
  rewrite LP in L1. rewrite LC in L2.
  set (A1 := Cake pw ssid (Some pk) (Some sk) None 2 false).
  set (B1 := Cake pw ssid None None (Some (bytes_at os1 0 32)) 3 true).
  set (A2 := Cake pw ssid (Some pk) (Some sk) (Some (decapsulate_ind_cpa LightSaber ct sk)) 4 true).
  assert (R0 : cake_run P h (Cake pw ssid None None None (first_step Initiator) false) os0 [] = Ret (A1, Ok (Some e1))).
  { unfold cake_run. cbn [first_step ck_step List.length Nat.eqb assert_ ck_ssid ck_password]. rewrite keygen_cpa_eq, KG.
    unfold copy_exact. rewrite LP, light_pk_bytes. change (672 =? 672)%nat with true. cbn [assert_ obind]. rewrite E1. reflexivity. }
  assert (R1 : cake_run P h (Cake pw ssid None None None (first_step Responder) false) os1 e1 = Ret (B1, Ok (Some e2))).
  { unfold cake_run. cbn [first_step ck_step ck_ssid ck_password].
    unfold copy_exact. rewrite L1, light_pk_bytes. change (672 =? 672)%nat with true. cbn [assert_ obind]. rewrite D1. cbn [obind].
    rewrite PK. cbn [obind]. rewrite EN, EQ, E2. reflexivity. }
  assert (R2 : forall os, cake_run P h A1 os e2 = Ret (A2, Ok None)).
  { intro os. unfold cake_run, A1. cbn [ck_step ck_ssid ck_password ck_sk]. unfold ciphertext_from_bytes, newtype_from_bytes.
    rewrite L2, light_ct_bytes. change (736 =? 736)%nat with true. cbn [negb assert_ obind unwrap_ok]. rewrite D2. reflexivity. }
  exists e1, e2, A2, B1, (decapsulate_ind_cpa LightSaber ct sk).
  split; [|split; [exact L1|split; [exact L2|]]].
  - unfold honest_run. apply (drive_I (pake_machine (CakePake P h)) _ _ _ _ _ A1); [reflexivity|exact R0|].
    apply (drive_R (pake_machine (CakePake P h)) _ _ _ _ _ B1); [reflexivity|cbn [m_run pake_machine pk_run CakePake opt_bytes]; change (snd (shift tape 0%nat)) with os1; exact R1|].
    apply (drive_I (pake_machine (CakePake P h)) _ _ _ _ _ A2); [reflexivity|cbn [m_run pake_machine pk_run CakePake CpacePake KcSpakePake opt_bytes]; apply R2|].
    apply drive_done_R. reflexivity.
  - cbn [CakePake pk_done pk_fin ck_done ck_key unwrap A2 B1]. repeat (split; [reflexivity|]). split; auto.
Qed.
Theorem cake_agreement : forall P h ssid pw rI rR tape sI sR rI' rR',
  pk_new (CakePake P h) rI ssid pw Initiator = Ret (sI, rI') ->
  pk_new (CakePake P h) rR ssid pw Responder = Ret (sR, rR') ->
  noise_ok h LightSaber (bytes_at (snd (tape 0%nat)) 0 32) (bytes_at (snd (tape 0%nat)) 32 32)
    (bytes_at (snd (tape 1%nat)) 32 32) ->
  exists m1 m2 sI' sR' k,
    honest_run (pake_machine (CakePake P h)) 4 tape sI sR = Res Completed [Some m1; Some m2; None] sI' sR' /\
    pk_done (CakePake P h) sI' = true /\ pk_done (CakePake P h) sR' = true /\
    pk_fin (CakePake P h) sI' = Ret k /\ pk_fin (CakePake P h) sR' = Ret k /\ List.length k = 32%nat.
Proof.
  intros P h ssid pw rI rR tape sI sR rI' rR' NI NR N.
  destruct (cake_run_completes P h ssid pw rI rR tape sI sR rI' rR' NI NR) as
    [m1 [m2 [sI' [sR' [kI [R [_ [_ [DI [DR [FR [FI K]]]]]]]]]]]].
  exists m1, m2, sI', sR', kI. apply kem_ok_of_noise in N. pose proof (proj2 K N) as N'. clear K N. subst kI. repeat split; try assumption.
Qed.
Lemma light_kem_fails : ~ kem_ok light_wit wit_r ones_r.
Proof.
  destruct light_decryption_failure as [_ F]. unfold kem_ok. revert F.
  generalize (keygen_ind_cpa light_wit LightSaber wit_r). intros [[pk sk] r].
  generalize (encapsulate_ind_cpa light_wit LightSaber ones_r pk). intros [[ss ct] r']. intro F. exact F.
Qed.
(** Without the condition on the noise it is false: LightSaber's damaged hint (C08) makes an
    honest run complete on both sides with different keys. *)
Theorem cake_agreement_unconditional_refuted : exists h tape, forall P ssid pw rI rR sI sR rI' rR',
  pk_new (CakePake P h) rI ssid pw Initiator = Ret (sI, rI') ->
  pk_new (CakePake P h) rR ssid pw Responder = Ret (sR, rR') ->
  exists outs sI' sR' kI kR,
    honest_run (pake_machine (CakePake P h)) 4 tape sI sR = Res Completed outs sI' sR' /\
    pk_done (CakePake P h) sI' = true /\ pk_done (CakePake P h) sR' = true /\
    pk_fin (CakePake P h) sI' = Ret kI /\ pk_fin (CakePake P h) sR' = Ret kR /\ kI <> kR.
Proof.
  exists light_wit, (fun k => match k with O => (wit_r, wit_r) | _ => (ones_r, ones_r) end).
  intros P ssid pw rI rR sI sR rI' rR' NI NR.
  destruct (cake_run_completes P light_wit ssid pw rI rR
     (fun k => match k with O => (wit_r, wit_r) | _ => (ones_r, ones_r) end) sI sR rI' rR' NI NR) as
    [m1 [m2 [sI' [sR' [kI [R [_ [_ [DI [DR [FR [FI K]]]]]]]]]]]].
  do 5 eexists. repeat (split; [eassumption|]). intro E. pose proof (proj1 K E) as E'. clear K E. cbn [snd] in E'. rename E' into E.
  exact (light_kem_fails E).
Qed.
(** Non-vacuity: noise within the margin, concretely. *)
Example cake_agreement_meets : exists h os0 os1,
  noise_ok h LightSaber (bytes_at os0 0 32) (bytes_at os0 32 32) (bytes_at os1 32 32).
Proof.
  exists light_wit2, wit_r, wit_r'. destruct wit_seeds as [-> [-> ->]]. exact noise_ok_light.
Qed.

(* ---------------------------------------------------------------- C20 *)
(** The base64 encoding is injective on byte strings. *)
Definition b64_val (c : Z) : Z :=
  if c =? 43 then 62 else if c =? 47 then 63 else if c <? 58 then c - 48 + 52
  else if c <? 91 then c - 65 else c - 97 + 26.
Lemma b64_val_char : forall x, 0 <= x < 64 -> b64_val (b64_char x) = x.
Proof.
  intros x H. unfold b64_val, b64_char.
  destruct (x <? 26) eqn:E1; [|destruct (x <? 52) eqn:E2; [|destruct (x <? 62) eqn:E3; [|destruct (x =? 62) eqn:E4]]];
  repeat match goal with |- context [if ?c then _ else _] => let E := fresh in destruct c eqn:E end;
  rewrite ?Z.eqb_eq, ?Z.eqb_neq, ?Z.ltb_lt, ?Z.ltb_ge in *; lia.
Qed.
Lemma b64_char_inj : forall x y, 0 <= x < 64 -> 0 <= y < 64 -> b64_char x = b64_char y -> x = y.
Proof. intros x y Hx Hy E. rewrite <- (b64_val_char x Hx), <- (b64_val_char y Hy), E. reflexivity. Qed.
Lemma b64_char_pad : forall x, 0 <= x < 64 -> b64_char x <> 61.
Proof.
  intros x H E. assert (V := b64_val_char x H). rewrite E in V. cbn in V. subst x. cbn in E. lia.
Qed.
Theorem base64_injective : forall a b, is_bytes a -> is_bytes b -> b64_encode a = b64_encode b -> a = b.
Proof.
  assert (G : forall n a b, (List.length a <= n)%nat -> is_bytes a -> is_bytes b -> b64_encode a = b64_encode b -> a = b).
  { induction n as [|n IH]; intros a b L Ha Hb E.
    - destruct a; [|cbn in L; lia]. destruct b as [|x [|y [|z b]]]; cbn in E; congruence.
    - assert (RNG : forall x y z, is_byte x -> is_byte y -> is_byte z ->
        0 <= x / 4 < 64 /\ 0 <= x mod 4 * 16 < 64 /\ 0 <= x mod 4 * 16 + y / 16 < 64 /\
        0 <= y mod 16 * 4 < 64 /\ 0 <= y mod 16 * 4 + z / 64 < 64 /\ 0 <= z mod 64 < 64).
      { unfold is_byte. intros. Z.div_mod_to_equations. lia. }
      destruct a as [|x [|y [|z a]]], b as [|x' [|y' [|z' b]]]; cbn [b64_encode] in E; try congruence;
      repeat match goal with H : is_bytes (_ :: _) |- _ => inversion H; subst; clear H | H : Forall is_byte (_ :: _) |- _ => inversion H; subst; clear H end;
      repeat match goal with H : is_byte ?v |- _ =>
        lazymatch goal with K : 0 <= v < 256 |- _ => fail | _ => pose proof (H : 0 <= v < 256) end end.
      + injection E as E1 E2. apply b64_char_inj in E1; [|Z.div_mod_to_equations; lia..].
        apply b64_char_inj in E2; [|Z.div_mod_to_equations; lia..]. f_equal. Z.div_mod_to_equations. lia.
      + injection E as E1 E2 E3. exfalso. apply (b64_char_pad (y' mod 16 * 4)); [Z.div_mod_to_equations; lia|congruence].
      + injection E as E1 E2 E3 E4 E5. exfalso. apply (b64_char_pad (z' mod 64)); [Z.div_mod_to_equations; lia|congruence].
      + injection E as E1 E2 E3. exfalso. apply (b64_char_pad (y mod 16 * 4)); [Z.div_mod_to_equations; lia|congruence].
      + injection E as E1 E2 E3. apply b64_char_inj in E1; [|Z.div_mod_to_equations; lia..].
        apply b64_char_inj in E2; [|Z.div_mod_to_equations; lia..].
        apply b64_char_inj in E3; [|Z.div_mod_to_equations; lia..].
        assert (x = x') by (Z.div_mod_to_equations; lia). assert (y = y') by (Z.div_mod_to_equations; lia). congruence.
      + injection E as E1 E2 E3 E4 E5. exfalso. apply (b64_char_pad (z' mod 64)); [Z.div_mod_to_equations; lia|congruence].
      + injection E as E1 E2 E3 E4 E5. exfalso. apply (b64_char_pad (z mod 64)); [Z.div_mod_to_equations; lia|congruence].
      + injection E as E1 E2 E3 E4 E5. exfalso. apply (b64_char_pad (z mod 64)); [Z.div_mod_to_equations; lia|congruence].
      + injection E as E1 E2 E3 E4 E5.
        apply b64_char_inj in E1; [|Z.div_mod_to_equations; lia..].
        apply b64_char_inj in E2; [|Z.div_mod_to_equations; lia..].
        apply b64_char_inj in E3; [|Z.div_mod_to_equations; lia..].
        apply b64_char_inj in E4; [|Z.div_mod_to_equations; lia..].
        assert (x = x') by (Z.div_mod_to_equations; lia). assert (y = y') by (Z.div_mod_to_equations; lia).
        assert (z = z') by (Z.div_mod_to_equations; lia). subst.
        f_equal. f_equal. f_equal. apply IH; auto. cbn in L. lia. }
  intros a b. apply (G (List.length a)). lia.
Qed.
(** ... and only that: the encoding of a byte string is made of characters of the alphabet. *)
Theorem base64_is_ascii : forall a, is_bytes a -> Forall (fun c => 43 <= c <= 122) (b64_encode a).
Proof.
  assert (C : forall x, 0 <= x < 64 -> 43 <= b64_char x <= 122).
  { intros x H. unfold b64_char.
    repeat match goal with |- context [if ?c then _ else _] => destruct c eqn:?; [..|] end;
    rewrite ?Z.eqb_eq, ?Z.eqb_neq, ?Z.ltb_lt, ?Z.ltb_ge in *; lia. }
  assert (G : forall n a, (List.length a <= n)%nat -> is_bytes a -> Forall (fun c => 43 <= c <= 122) (b64_encode a)).
  { induction n as [|n IH]; intros a L Ha.
    - destruct a; [constructor|cbn in L; lia].
    - destruct a as [|x [|y [|z a]]]; cbn [b64_encode]; [constructor|..];
      repeat match goal with H : is_bytes (_ :: _) |- _ => inversion H; subst; clear H | H : Forall is_byte (_ :: _) |- _ => inversion H; subst; clear H end;
      repeat match goal with H : is_byte ?v |- _ => change (0 <= v < 256) in H end;
      repeat (first [apply Forall_nil | apply Forall_cons]); try lia; try (apply C; Z.div_mod_to_equations; lia).
      apply IH; [cbn in L; lia|assumption]. }
  intros a. apply (G (List.length a)). lia.
Qed.

(** Agreement, for every correct CPace crate and all randomness on which its calls succeed. *)
Theorem cpace_agreement : forall C ssid pw rI rR tape sI sR rI' rR' st kp,
  cpace_correct C ->
  pk_new (CpacePake C) rI ssid pw Initiator = Ret (sI, rI') ->
  pk_new (CpacePake C) rR ssid pw Responder = Ret (sR, rR') ->
  cp_step1 C (b64_encode pw) (str "latke_cpace_initiator") (str "latke_cpace_responder") ssid (snd (tape 0%nat)) = Some st ->
  cp_step2 C (cpace_packet1 C st) (b64_encode pw) (str "latke_cpace_initiator") (str "latke_cpace_responder") ssid (snd (tape 1%nat)) = Some kp ->
  exists m1 m2 sI' sR' k,
    honest_run (pake_machine (CpacePake C)) 4 tape sI sR = Res Completed [Some m1; Some m2; None] sI' sR' /\
    List.length m1 = 48%nat /\ List.length m2 = 32%nat /\
    pk_done (CpacePake C) sI' = true /\ pk_done (CpacePake C) sR' = true /\
    pk_fin (CpacePake C) sI' = Ret k /\ pk_fin (CpacePake C) sR' = Ret k /\ List.length k = 32%nat.
Proof.
  intros C ssid pw rI rR tape sI sR rI' rR' st [k p] OK NI NR S1 S2.
  cbn [CpacePake pk_new] in NI, NR. unfold cpace_new in NI, NR. injection NI as <- _. injection NR as <- _.
  destruct (OK _ _ _ _ _ _ _ _ _ S1 S2) as [k' [S3 EK]].
  set (A0 := Cpace None (first_step Initiator) false None ssid (b64_encode pw) : cpace C).
  set (B0 := Cpace None (first_step Responder) false None ssid (b64_encode pw) : cpace C).
  set (A1 := Cpace (Some st) 2 false None ssid (b64_encode pw) : cpace C).
  set (B1 := Cpace None 3 true (Some (bytes_of 32 k)) ssid (b64_encode pw) : cpace C).
  set (A2 := Cpace (Some st) 4 true (Some (bytes_of 32 k')) ssid (b64_encode pw)).
  assert (R0 : cpace_run C A0 (snd (tape 0%nat)) [] = Ret (A1, Ok (Some (cpace_packet1 C st)))).
  { unfold cpace_run, A0. cbn [first_step cp_step List.length Nat.eqb assert_ cp_ssid cp_password].
    unfold PROTO_ID_INIT, PROTO_ID_RESP. rewrite S1. reflexivity. }
  assert (R1 : cpace_run C B0 (snd (tape 1%nat)) (cpace_packet1 C st) = Ret (B1, Ok (Some (bytes_of 32 p)))).
  { unfold cpace_run, B0. cbn [first_step cp_step cp_ssid cp_password]. unfold copy_exact. unfold cpace_packet1 at 1. rewrite bytes_of_length.
    cbn [Nat.eqb assert_ obind]. unfold PROTO_ID_INIT, PROTO_ID_RESP. rewrite S2. reflexivity. }
  assert (R2 : forall os, cpace_run C A1 os (bytes_of 32 p) = Ret (A2, Ok None)).
  { intro os. unfold cpace_run, A1. cbn [cp_step cp_ssid cp_password]. unfold copy_exact. rewrite bytes_of_length.
    cbn [Nat.eqb assert_ obind cp_state unwrap]. rewrite S3. reflexivity. }
  exists (cpace_packet1 C st), (bytes_of 32 p), A2, B1, (bytes_of 32 k).
  split; [|split; [apply bytes_of_length|split; [apply bytes_of_length|]]].
  - unfold honest_run. apply (drive_I (pake_machine (CpacePake C)) _ _ _ _ _ A1); [reflexivity|exact R0|].
    apply (drive_R (pake_machine (CpacePake C)) _ _ _ _ _ B1); [reflexivity|cbn [m_run pake_machine pk_run CpacePake opt_bytes]; change (snd (shift tape 0%nat)) with (snd (tape 1%nat)); exact R1|].
    apply (drive_I (pake_machine (CpacePake C)) _ _ _ _ _ A2); [reflexivity|cbn [m_run pake_machine pk_run CakePake CpacePake KcSpakePake opt_bytes]; apply R2|].
    apply drive_done_R. reflexivity.
  - cbn [CpacePake pk_done pk_fin cp_done cp_key unwrap A2 B1]. rewrite EK. repeat (split; [reflexivity|]). apply bytes_of_length.
Qed.
(** A toy crate that meets the hypotheses. *)
Definition toy_cpace : cpace_crate := {|
  CPST := rng;
  cp_step1 := fun pw a b ad r => Some (fun i => toy_sum (pw ++ ad) + u8 (r i));
  cp_packet1 := fun st => st;
  cp_step2 := fun p pw a b ad r => Some (fun i => nth i p 0 + u8 (toy_sum (pw ++ ad) + u8 (r i)), fun i => toy_sum (pw ++ ad) + u8 (r i));
  cp_step3 := fun st p => Some (fun i => u8 (st i) + nth i p 0) |}.
Lemma bytes_of_nth : forall n s i, (i < n)%nat -> nth i (bytes_of n s) 0 = u8 (s i).
Proof.
  intros n s i H. unfold bytes_of, draw. cbn [fst].
  rewrite (nth_indep _ 0 (u8 (s (n + n)%nat))) by (rewrite map_length, seq_length; exact H).
  change (u8 (s (n + n)%nat)) with ((fun j => u8 (s j)) (n + n)%nat). rewrite map_nth, seq_nth by exact H. reflexivity.
Qed.
Lemma some_pair_inv : forall {A B} (a c : A) (b d : B), Some (a, b) = Some (c, d) -> a = c /\ b = d.
Proof. intros. split; congruence. Qed.
Lemma toy_cpace_correct : cpace_correct toy_cpace.
Proof.
  intros pw a b ad r1 r2 st k p H1 H2. cbn [toy_cpace cp_step1 cp_step2] in H1, H2.
  apply some_pair_inv in H2. destruct H2 as [<- <-]. cbn [toy_cpace cp_step3].
  eexists. split; [reflexivity|]. apply bytes_of_ext. intros i Hi. unfold cpace_packet1. cbn [toy_cpace cp_packet1].
  rewrite (bytes_of_nth 48), (bytes_of_nth 32) by lia. reflexivity.
Qed.
Example cpace_agreement_meets : cpace_correct toy_cpace /\ forall r pw ssid, exists st kp,
  cp_step1 toy_cpace (b64_encode pw) (str "latke_cpace_initiator") (str "latke_cpace_responder") ssid r = Some st /\
  cp_step2 toy_cpace (cpace_packet1 toy_cpace st) (b64_encode pw) (str "latke_cpace_initiator") (str "latke_cpace_responder") ssid r = Some kp.
Proof. split; [exact toy_cpace_correct|]. intros. do 2 eexists. split; reflexivity. Qed.

(* ---------------------------------------------------------------- C21 *)
(** Specification of the key schedule: the 96 bytes expanded from the SPAKE2 key over the
    transcript password, protocol id, initiator message, responder message, key. *)
Definition kc_okm (P : prims) (pw msg_i msg_r pake_key : bytes) : bytes :=
  expand P pake_key (pw ++ str "latke_kc_spake2" ++ msg_i ++ msg_r ++ pake_key) 96.
Definition kc_mac_i (P : prims) pw mi mr k : bytes := firstn 32 (kc_okm P pw mi mr k).
Definition kc_mac_r (P : prims) pw mi mr k : bytes := firstn 32 (skipn 32 (kc_okm P pw mi mr k)).
Definition kc_sess (P : prims) pw mi mr k : bytes := skipn 64 (kc_okm P pw mi mr k).

Lemma kc_derive_ok : forall P pw mi mr k, (32 <= List.length k)%nat ->
  kc_derive P pw mi mr k = Ret (kc_mac_i P pw mi mr k, kc_mac_r P pw mi mr k, kc_sess P pw mi mr k).
Proof.
  intros P pw mi mr k L. unfold kc_derive. rewrite from_prk_ok by exact L. cbn [obind]. unfold PROTO_ID.
  fold (kc_okm P pw mi mr k). assert (LO : List.length (kc_okm P pw mi mr k) = 96%nat) by apply expand_length.
  unfold split_at at 1. rewrite LO. cbn [Nat.leb obind]. unfold split_at. rewrite firstn_length, LO. cbn [Nat.min Nat.leb obind].
  unfold kc_mac_i, kc_mac_r, kc_sess. rewrite firstn_firstn, skipn_firstn_comm. reflexivity.
Qed.
Lemma kc_derive_inv : forall P pw mi mr k x, kc_derive P pw mi mr k = Ret x ->
  (32 <= List.length k)%nat /\ x = (kc_mac_i P pw mi mr k, kc_mac_r P pw mi mr k, kc_sess P pw mi mr k).
Proof.
  intros P pw mi mr k x H. assert (L : (32 <= List.length k)%nat).
  { unfold kc_derive in H. destruct (from_prk k) eqn:E; [|discriminate]. apply from_prk_inv in E. tauto. }
  rewrite kc_derive_ok in H by exact L. injection H as <-. auto.
Qed.
Lemma kc_mac_r_length : forall P pw mi mr k, List.length (kc_mac_r P pw mi mr k) = 32%nat.
Proof.
  intros. unfold kc_mac_r. rewrite firstn_length, skipn_length. unfold kc_okm. rewrite expand_length. reflexivity.
Qed.
Lemma kc_sess_length : forall P pw mi mr k, List.length (kc_sess P pw mi mr k) = 32%nat.
Proof. intros. unfold kc_sess. rewrite skipn_length. unfold kc_okm. rewrite expand_length. reflexivity. Qed.

(** Agreement: three messages, both done, one key, for every correct SPAKE2. *)
Theorem kc_spake2_agreement : forall P S ssid pw rI rR tape sI sR rI' rR',
  spake_correct S ->
  pk_new (KcSpakePake P S) rI ssid pw Initiator = Ret (sI, rI') ->
  pk_new (KcSpakePake P S) rR ssid pw Responder = Ret (sR, rR') ->
  exists m1 m2 m3 sI' sR' k,
    honest_run (pake_machine (KcSpakePake P S)) 5 tape sI sR =
      Res Completed [Some m1; Some m2; Some m3; None] sI' sR' /\
    pk_done (KcSpakePake P S) sI' = true /\ pk_done (KcSpakePake P S) sR' = true /\
    pk_fin (KcSpakePake P S) sI' = Ret k /\ pk_fin (KcSpakePake P S) sR' = Ret k /\ List.length k = 32%nat.
Proof.
  intros P S ssid pw rI rR tape sI sR rI' rR' OK NI NR.
  cbn [KcSpakePake pk_new] in NI, NR. unfold kc_new in NI, NR. specialize (OK pw ssid rI rR).
  destruct (sp_start S pw ssid rI) as [[st1 m1] r1]. destruct (sp_start S pw ssid rR) as [[st2 m2] r2].
  injection NI as <- _. injection NR as <- _. destruct OK as [pk [F1 [F2 L]]].
  set (A0 := KcSpake (Some st1) m1 (first_step Initiator) false None None pw : kcspake S).
  set (B0 := KcSpake (Some st2) m2 (first_step Responder) false None None pw : kcspake S).
  set (mr := kc_mac_r P pw m1 m2 pk). set (mi := kc_mac_i P pw m1 m2 pk). set (key := kc_sess P pw m1 m2 pk).
  set (A1 := KcSpake (Some st1) m1 2 false None None pw : kcspake S).
  set (B1 := KcSpake None m2 3 false (Some key) (Some (mi, mr)) pw : kcspake S).
  set (A2 := KcSpake None m1 4 true (Some key) (Some (mi, mr)) pw : kcspake S).
  set (B2 := KcSpake None m2 5 true (Some key) (Some (mi, mr)) pw : kcspake S).
  assert (R0 : forall os, kc_run P S A0 os [] = Ret (A1, Ok (Some m1))) by reflexivity.
  assert (R1 : forall os, kc_run P S B0 os m1 = Ret (B1, Ok (Some (m2 ++ mr)))).
  { intro os. unfold kc_run, B0. cbn [first_step kc_step kc_state kc_first kc_password kc_done unwrap obind]. rewrite F2. cbn [unwrap obind].
    rewrite kc_derive_ok by lia. reflexivity. }
  assert (R2 : forall os, kc_run P S A1 os (m2 ++ mr) = Ret (A2, Ok (Some mi))).
  { intro os. unfold kc_run, A1. cbn [kc_step kc_state kc_first kc_password kc_done].
    rewrite split_last_app by apply kc_mac_r_length. cbn [obind unwrap]. rewrite F1. cbn [unwrap obind].
    rewrite kc_derive_ok by lia. cbn [obind]. fold mr mi key. rewrite beq_refl. reflexivity. }
  assert (R3 : forall os, kc_run P S B1 os mi = Ret (B2, Ok None)).
  { intro os. unfold kc_run, B1. cbn [kc_step kc_macs kc_first kc_password kc_done kc_state kc_key unwrap obind]. rewrite beq_refl. reflexivity. }
  exists m1, (m2 ++ mr), mi, A2, B2, key. split.
  - unfold honest_run. apply (drive_I (pake_machine (KcSpakePake P S)) _ _ _ _ _ A1); [reflexivity|cbn [m_run pake_machine pk_run KcSpakePake opt_bytes]; apply R0|].
    apply (drive_R (pake_machine (KcSpakePake P S)) _ _ _ _ _ B1); [reflexivity|cbn [m_run pake_machine pk_run CakePake CpacePake KcSpakePake opt_bytes]; apply R1|].
    apply (drive_I (pake_machine (KcSpakePake P S)) _ _ _ _ _ A2); [reflexivity|cbn [m_run pake_machine pk_run CakePake CpacePake KcSpakePake opt_bytes]; apply R2|].
    apply (drive_R (pake_machine (KcSpakePake P S)) _ _ _ _ _ B2); [reflexivity|cbn [m_run pake_machine pk_run CakePake CpacePake KcSpakePake opt_bytes]; apply R3|].
    apply drive_done_I. reflexivity.
  - cbn [KcSpakePake pk_done pk_fin kc_done kc_key unwrap A2 B2]. repeat (split; [reflexivity|]). apply kc_sess_length.
Qed.

(** Key confirmation. What the calls so far say about a session, for every log of calls with
    arbitrary messages: [st0] and [own] are the SPAKE2 state and message drawn at creation. *)
Definition kc_inv (P : prims) (S : spake_crate) (pw own : bytes) (st0 : SPST S) (rl : role)
  (l : log (pake_machine (KcSpakePake P S))) (s : kcspake S) : Prop :=
  kc_first s = own /\ kc_password s = pw /\
  match rl with
  | Initiator =>
      (kc_step s = 0 /\ kc_state s = Some st0 /\ kc_done s = false /\ kc_key s = None)%nat \/
      (kc_step s = 2 /\ kc_state s = Some st0 /\ kc_done s = false /\ kc_key s = None)%nat \/
      (kc_step s = 2 /\ kc_state s = None /\ kc_done s = false)%nat \/
      (kc_step s = 4 /\ kc_done s = true /\ exists msg k,
        sp_finish S st0 msg = Some k /\
        In (msg ++ kc_mac_r P pw own msg k, Ok (Some (kc_mac_i P pw own msg k))) l /\
        kc_key s = Some (kc_sess P pw own msg k))%nat
  | Responder =>
      (kc_step s = 1 /\ kc_state s = Some st0 /\ kc_done s = false /\ kc_key s = None)%nat \/
      (kc_step s = 3 /\ kc_done s = false /\ exists msg k,
        sp_finish S st0 msg = Some k /\ In (msg, Ok (Some (own ++ kc_mac_r P pw msg own k))) l /\
        kc_key s = Some (kc_sess P pw msg own k) /\ kc_macs s = Some (kc_mac_i P pw msg own k, kc_mac_r P pw msg own k))%nat \/
      (kc_step s = 5 /\ kc_done s = true /\ exists msg k,
        sp_finish S st0 msg = Some k /\ In (msg, Ok (Some (own ++ kc_mac_r P pw msg own k))) l /\
        In (kc_mac_i P pw msg own k, Ok None) l /\
        kc_key s = Some (kc_sess P pw msg own k))%nat
  end.
Lemma kc_inv_hist : forall P S r ssid pw rl s0 r' st0 own r1 l s,
  sp_start S pw ssid r = (st0, own, r1) ->
  pk_new (KcSpakePake P S) r ssid pw rl = Ret (s0, r') ->
  hist (pake_machine (KcSpakePake P S)) s0 l s -> kc_inv P S pw own st0 rl l s.
Proof.
  intros P S r ssid pw rl s0 r' st0 own r1 l s ST N H.
  cbn [KcSpakePake pk_new] in N. unfold kc_new in N. rewrite ST in N. injection N as <- _.
  induction H as [|l s rr m s' o H IH E].
  { unfold kc_inv. cbn [kc_first kc_password kc_step kc_state kc_done kc_key first_step]. repeat split; auto.
    destruct rl; cbn [first_step]; left; auto. }
  assert (INL : forall x, In x l -> In x (l ++ [(m, o)])) by (intros x Hx; apply in_or_app; left; exact Hx).
  assert (INR : In (m, o) (l ++ [(m, o)])) by (apply in_or_app; right; left; reflexivity).
  destruct IH as [A [B IH]]. cbn [pake_machine m_run KcSpakePake pk_run] in E. unfold kc_run in E.
  assert (D2 : kc_step s = 2%nat -> rl = Initiator -> kc_done s = false ->
    (kc_state s = Some st0 \/ kc_state s = None) -> kc_inv P S pw own st0 rl (l ++ [(m, o)]) s').
  { intros E2 -> D ST'. rewrite E2 in E. destruct (split_last 32 m) as [[msg mac]|] eqn:SL; [|discriminate].
    cbn [obind] in E. destruct ST' as [ST'|ST']; rewrite ST' in E; [|discriminate]. cbn [unwrap obind] in E.
    destruct (sp_finish S st0 msg) as [k|] eqn:F; [|discriminate]. cbn [unwrap obind] in E.
    destruct (kc_derive P (kc_password s) (kc_first s) msg k) as [[[m0 m1] key]|] eqn:K; [|discriminate]. cbn [obind] in E.
    apply kc_derive_inv in K. destruct K as [LK K]. injection K as -> -> ->. rewrite A, B in E.
    destruct (beq (kc_mac_r P pw own msg k) mac) eqn:Q.
    - apply beq_spec in Q. apply split_last_inv in SL. destruct SL as [-> _]. subst mac.
      injection E as <- <-. unfold kc_inv. cbn [kc_first kc_password kc_step kc_state kc_done kc_key]. repeat split; auto.
      right. right. right. repeat split; auto. exists msg, k. repeat split; auto.
    - injection E as <- <-. unfold kc_inv. cbn [kc_first kc_password kc_step kc_state kc_done kc_key]. split; [auto|split; [auto|]]. right. right. left. repeat split; auto. }
  destruct rl.
  - destruct IH as [[E0 [S0 [D0 K0]]]|[[E0 [S0 [D0 K0]]]|[[E0 [S0 D0]]|[E0 _]]]].
    + rewrite E0 in E. destruct (List.length m =? 0)%nat; [|discriminate]. cbn [assert_] in E. injection E as <- <-.
      unfold kc_inv. cbn [kc_first kc_password kc_step kc_state kc_done kc_key]. repeat split; auto. right. left. repeat split; auto.
    + apply D2; auto.
    + apply D2; auto.
    + rewrite E0 in E. discriminate.
  - destruct IH as [[E0 [S0 [D0 K0]]]|[[E0 [D0 [msg [k [F [IN [K0 M0]]]]]]]|[E0 _]]].
    + rewrite E0, S0 in E. cbn [unwrap obind] in E. destruct (sp_finish S st0 m) as [k|] eqn:F; [|discriminate]. cbn [unwrap obind] in E.
      destruct (kc_derive P (kc_password s) m (kc_first s) k) as [[[m0 m1] key]|] eqn:K; [|discriminate]. cbn [obind] in E.
      apply kc_derive_inv in K. destruct K as [LK K]. injection K as -> -> ->. rewrite A, B in E. injection E as <- <-.
      unfold kc_inv. cbn [kc_first kc_password kc_step kc_state kc_done kc_key kc_macs]. repeat split; auto.
      right. left. repeat split; auto. exists m, k. repeat split; auto.
    + rewrite E0, M0 in E. cbn [unwrap obind] in E. destruct (beq (kc_mac_i P pw msg own k) m) eqn:Q.
      * apply beq_spec in Q. subst m. injection E as <- <-.
        unfold kc_inv. cbn [kc_first kc_password kc_step kc_state kc_done kc_key]. repeat split; auto.
        right. right. repeat split; auto. exists msg, k. repeat split; auto.
      * injection E as <- <-. unfold kc_inv. repeat split; auto. right. left. repeat split; auto. exists msg, k. repeat split; auto.
    + rewrite E0 in E. discriminate.
Qed.
(** A session that is done received a message that carries the MAC of the other role over
    the transcript of this session (own message, peer message, password, SPAKE2 key), and its
    key is derived from the same transcript. *)
Theorem kc_done_only_with_mac : forall P S r ssid pw rl s0 r' st0 own r1 l s,
  sp_start S pw ssid r = (st0, own, r1) ->
  pk_new (KcSpakePake P S) r ssid pw rl = Ret (s0, r') ->
  hist (pake_machine (KcSpakePake P S)) s0 l s ->
  pk_done (KcSpakePake P S) s = true ->
  exists peer k, sp_finish S st0 peer = Some k /\
    let mi := match rl with Initiator => own | Responder => peer end in
    let mr := match rl with Initiator => peer | Responder => own end in
    match rl with
    | Initiator => In (peer ++ kc_mac_r P pw mi mr k, Ok (Some (kc_mac_i P pw mi mr k))) l
    | Responder => In (peer, Ok (Some (own ++ kc_mac_r P pw mi mr k))) l /\ In (kc_mac_i P pw mi mr k, Ok None) l
    end /\
    pk_fin (KcSpakePake P S) s = Ret (kc_sess P pw mi mr k).
Proof.
  intros P S r ssid pw rl s0 r' st0 own r1 l s ST N H D. pose proof (kc_inv_hist _ _ _ _ _ _ _ _ _ _ _ _ _ ST N H) as [_ [_ IV]].
  cbn [KcSpakePake pk_done pk_fin] in *. destruct rl; cbn [kc_inv] in IV.
  - destruct IV as [[_ [_ [D0 _]]]|[[_ [_ [D0 _]]]|[[_ [_ D0]]|[_ [_ [msg [k [F [IN K]]]]]]]]]; try congruence.
    exists msg, k. cbv zeta. rewrite K. repeat split; assumption.
  - destruct IV as [[_ [_ [D0 _]]]|[[_ [D0 _]]|[_ [_ [msg [k [F [I1 [I2 K]]]]]]]]]; try congruence.
    exists msg, k. cbv zeta. rewrite K. repeat split; assumption.
Qed.
(** A wrong MAC gives Err and leaves the session not done. *)
Theorem kc_wrong_mac_rejected : forall P S r ssid pw rl s0 r' st0 own r1 l s os,
  sp_start S pw ssid r = (st0, own, r1) ->
  pk_new (KcSpakePake P S) r ssid pw rl = Ret (s0, r') ->
  hist (pake_machine (KcSpakePake P S)) s0 l s ->
  match rl with
  | Initiator => forall peer mac k, kc_step s = 2%nat -> kc_state s = Some st0 ->
      sp_finish S st0 peer = Some k -> (32 <= List.length k)%nat ->
      List.length mac = 32%nat -> mac <> kc_mac_r P pw own peer k ->
      exists s', pk_run (KcSpakePake P S) s os (peer ++ mac) = Ret (s', Err tt) /\ pk_done (KcSpakePake P S) s' = false
  | Responder => forall mac, kc_step s = 3%nat ->
      exists peer k, In (peer, Ok (Some (own ++ kc_mac_r P pw peer own k))) l /\ sp_finish S st0 peer = Some k /\
      (mac <> kc_mac_i P pw peer own k ->
       exists s', pk_run (KcSpakePake P S) s os mac = Ret (s', Err tt) /\ pk_done (KcSpakePake P S) s' = false)
  end.
Proof.
  intros P S r ssid pw rl s0 r' st0 own r1 l s os ST N H. pose proof (kc_inv_hist _ _ _ _ _ _ _ _ _ _ _ _ _ ST N H) as [A [B IV]].
  cbn [KcSpakePake pk_done pk_fin pk_run] in *. destruct rl; cbn [kc_inv] in IV.
  - intros peer mac k E2 S2 F LK LM NE. assert (D0 : kc_done s = false).
    { destruct IV as [[_ [_ [D0 _]]]|[[_ [_ [D0 _]]]|[[_ [_ D0]]|[E4 _]]]]; congruence. }
    unfold kc_run. rewrite E2, S2, split_last_app by exact LM. cbn [obind unwrap]. rewrite F. cbn [obind unwrap].
    rewrite A, B, kc_derive_ok by exact LK. cbn [obind].
    destruct (beq (kc_mac_r P pw own peer k) mac) eqn:Q; [apply beq_spec in Q; congruence|].
    eexists. split; [reflexivity|]. cbn [kc_done]. exact D0.
  - intros mac E3. destruct IV as [[E1 _]|[[_ [D0 [msg [k [F [IN [K0 M0]]]]]]]|[E5 _]]]; [congruence| |congruence].
    exists msg, k. repeat (split; [assumption|]). intro NE. exists s. unfold kc_run. rewrite E3, M0. cbn [unwrap obind].
    destruct (beq (kc_mac_i P pw msg own k) mac) eqn:Q; [apply beq_spec in Q; congruence|]. auto.
Qed.

(** A toy crate that meets the hypotheses. *)
Definition toy_spake : spake_crate := {|
  SPST := bytes;
  sp_start := fun pw id r => let (x, r1) := draw 32 r in (x, x, r1);
  sp_finish := fun x m => if (List.length m =? 32)%nat then Some (xor_bytes x m) else None |}.
Lemma xor_bytes_comm : forall a b, xor_bytes a b = xor_bytes b a.
Proof. unfold xor_bytes. induction a; destruct b; cbn; auto. rewrite IHa, Z.lxor_comm. reflexivity. Qed.
Lemma toy_spake_correct : spake_correct toy_spake.
Proof.
  intros pw id r1 r2. unfold toy_spake; cbn [sp_start sp_finish].
  destruct (draw 32 r1) as [x1 r1'] eqn:E1. destruct (draw 32 r2) as [x2 r2'] eqn:E2.
  assert (L1 : List.length x1 = 32%nat) by (rewrite <- (draw_length 32 r1), E1; reflexivity).
  assert (L2 : List.length x2 = 32%nat) by (rewrite <- (draw_length 32 r2), E2; reflexivity).
  cbn [sp_finish]. rewrite L1, L2. cbn [Nat.eqb]. exists (xor_bytes x1 x2). rewrite (xor_bytes_comm x2 x1).
  repeat split. rewrite xor_bytes_length, L1, L2. reflexivity.
Qed.
Example kc_agreement_meets : spake_correct toy_spake.
Proof. exact toy_spake_correct. Qed.

(* ---------------------------------------------------------------- C22 *)
(** CAKE and CPace: in every state a peer can bring a session to, finalize returns a key
    exactly when the session is done, and panics otherwise. *)
Definition fin_iff_done (K : pake) : Prop :=
  forall r ssid pw rl s0 r' s,
    pk_new K r ssid pw rl = Ret (s0, r') -> reach (pake_machine K) s0 s ->
    (pk_done K s = true -> exists key, pk_fin K s = Ret key) /\
    (pk_done K s = false -> pk_fin K s = Panic).
Lemma fin_iff_done_by : forall (K : pake) (key : PST K -> option bytes),
  (forall s, pk_fin K s = unwrap (key s)) ->
  (forall r ssid pw rl s0 r', pk_new K r ssid pw rl = Ret (s0, r') -> pk_done K s0 = false /\ key s0 = None) ->
  (forall s os m s' o, (pk_done K s = true <-> key s <> None) -> pk_run K s os m = Ret (s', o) ->
     (pk_done K s' = true <-> key s' <> None)) ->
  fin_iff_done K.
Proof.
  intros K key HF HN HR r ssid pw rl s0 r' s N R.
  assert (X : pk_done K s = true <-> key s <> None).
  { induction R as [|s rr m s' o R IH E].
    - destruct (HN _ _ _ _ _ _ N) as [A B]. rewrite A, B. split; congruence.
    - eapply HR; [exact IH|exact E]. }
  rewrite HF. split; intro D.
  - apply X in D. destruct (key s) as [k|]; [exists k; reflexivity|congruence].
  - destruct (key s) as [k|]; [|reflexivity]. assert (pk_done K s = true) by (apply X; congruence). congruence.
Qed.
Ltac ob H := repeat match type of H with
  | obind ?x _ = Ret _ => let E := fresh "E" in destruct x eqn:E; [|discriminate H]; cbn [obind] in H
  | assert_ ?b _ = Ret _ => let E := fresh "E" in destruct b eqn:E; [|discriminate H]; cbn [assert_] in H
  | Panic = Ret _ => discriminate H
  | (let '(_, _) := ?p in _) = Ret _ => let E := fresh "E" in destruct p eqn:E
  end.
Theorem cake_finalize_iff_done : forall P h, fin_iff_done (CakePake P h).
Proof.
  intros P h. apply (fin_iff_done_by (CakePake P h) ck_key); [reflexivity|..].
  - intros r ssid pw rl s0 r' N. cbn in N. injection N as <- _. split; reflexivity.
  - intros s os m s' o IH E. cbn [CakePake pk_done pk_run PST] in *. unfold cake_run in E.
    destruct (ck_step s) as [|[|[|n]]]; ob E; injection E as <- _; cbn [ck_done ck_key]; try assumption; split; congruence.
Qed.
Theorem cpace_finalize_iff_done : forall C, fin_iff_done (CpacePake C).
Proof.
  intros C. apply (fin_iff_done_by (CpacePake C) cp_key); [reflexivity|..].
  - intros r ssid pw rl s0 r' N. cbn in N. injection N as <- _. split; reflexivity.
  - intros s os m s' o IH E. cbn [CpacePake pk_done pk_run PST] in *. unfold cpace_run in E.
    destruct (cp_step s) as [|[|[|n]]]; ob E; injection E as <- _; cbn [cp_done cp_key]; try assumption; split; congruence.
Qed.
(** KC-SPAKE2: refuted. For every correct SPAKE2 crate and all randomness: a responder that has
    received the first message hands out a key although it is not done, and an initiator that
    has rejected a forged MAC does too. *)
Theorem kc_spake2_finalize_refuted : forall P S, spake_correct S ->
  forall r r2 ssid pw sR r' os,
  pk_new (KcSpakePake P S) r ssid pw Responder = Ret (sR, r') ->
  exists s m key, reach (pake_machine (KcSpakePake P S)) sR s /\
    pk_run (KcSpakePake P S) sR os (snd (fst (sp_start S pw ssid r2))) = Ret (s, Ok (Some m)) /\
    pk_done (KcSpakePake P S) s = false /\ pk_fin (KcSpakePake P S) s = Ret key.
Proof.
  intros P S OK r r2 ssid pw sR r' os N. specialize (OK pw ssid r r2).
  cbn [KcSpakePake pk_new] in N. unfold kc_new in N.
  destruct (sp_start S pw ssid r) as [[st1 m1] r1]. destruct (sp_start S pw ssid r2) as [[st2 m2] r2'].
  injection N as <- _. destruct OK as [k [F1 [F2 L]]]. cbn [fst snd].
  assert (E : exists s m key, pk_run (KcSpakePake P S) (KcSpake (Some st1) m1 (first_step Responder) false None None pw) os m2 = Ret (s, Ok (Some m)) /\
    kc_done s = false /\ kc_key s = Some key).
  { cbn [KcSpakePake pk_run]. unfold kc_run. cbn [first_step kc_step kc_state unwrap obind kc_password kc_first]. rewrite F1. cbn [unwrap obind].
    rewrite kc_derive_ok by lia. cbn [obind]. do 3 eexists. repeat split. }
  destruct E as [s [m [key [E [D K]]]]]. exists s, m, key. split; [|split; [exact E|split; [exact D|]]].
  - eapply (reach_run (pake_machine (KcSpakePake P S)) _ _ (r, os) m2 s (Ok (Some m))); [apply reach_init|exact E].
  - cbn [KcSpakePake pk_fin]. rewrite K. reflexivity.
Qed.
Theorem kc_spake2_finalize_after_bad_mac : forall P S, spake_correct S ->
  forall r r2 ssid pw sI r' os os' mac,
  pk_new (KcSpakePake P S) r ssid pw Initiator = Ret (sI, r') ->
  List.length mac = 32%nat ->
  let own := snd (fst (sp_start S pw ssid r)) in
  let peer := snd (fst (sp_start S pw ssid r2)) in
  (forall k, mac <> kc_mac_r P pw own peer k) ->
  exists s1 s2 key, pk_run (KcSpakePake P S) sI os [] = Ret (s1, Ok (Some own)) /\
    pk_run (KcSpakePake P S) s1 os' (peer ++ mac) = Ret (s2, Err tt) /\
    pk_done (KcSpakePake P S) s2 = false /\ pk_fin (KcSpakePake P S) s2 = Ret key.
Proof.
  intros P S OK r r2 ssid pw sI r' os os' mac N LM own peer NE. subst own peer. specialize (OK pw ssid r r2).
  cbn [KcSpakePake pk_new] in N. unfold kc_new in N.
  destruct (sp_start S pw ssid r) as [[st1 m1] r1]. destruct (sp_start S pw ssid r2) as [[st2 m2] r2'].
  injection N as <- _. destruct OK as [k [F1 [F2 L]]]. cbn [fst snd] in *.
  cbn [KcSpakePake pk_run pk_done pk_fin]. unfold kc_run at 1. cbn [first_step kc_step List.length Nat.eqb assert_].
  do 3 eexists. split; [reflexivity|]. unfold kc_run.
  cbn [kc_step kc_state kc_first kc_password kc_done Nat.add]. rewrite split_last_app by exact LM. cbn [obind unwrap].
  rewrite F1. cbn [unwrap obind]. rewrite kc_derive_ok by lia. cbn [obind].
  destruct (beq (kc_mac_r P pw m1 m2 k) mac) eqn:Q; [apply beq_spec in Q; symmetry in Q; destruct (NE _ Q)|].
  split; [reflexivity|]. cbn [kc_done kc_key unwrap]. split; reflexivity.
Qed.

(** Such a MAC exists, concretely. *)
Example bad_mac_exists : forall pw own peer k, repeat 0 32 <> kc_mac_r toy_prims pw own peer k.
Proof.
  intros pw own peer k E. unfold kc_mac_r, kc_okm, expand in E.
  assert (E0 := f_equal (fun l => nth 0 l 0) E). assert (E1 := f_equal (fun l => nth 1 l 0) E). cbv beta in E0, E1.
  assert (NF : forall (l : list Z) n i, (i < n)%nat -> nth i (firstn n l) 0 = nth i l 0).
  { induction l as [|x l IH]; intros [|n] [|i] H; cbn; try lia; auto. apply IH. lia. }
  assert (NS : forall (l : list Z) n i, nth i (skipn n l) 0 = nth (n + i) l 0).
  { induction l as [|x l IH]; intros [|n] i; cbn; auto. destruct i; reflexivity. }
  rewrite NF, NS, bytes_of_nth in E0, E1 by lia. cbn [p_expand toy_prims] in E0, E1. unfold toy_stream in E0, E1.
  change (nth 0 (repeat 0 32) 0) with 0 in E0. change (nth 1 (repeat 0 32) 0) with 0 in E1.
  revert E0 E1. generalize (toy_sum (4 :: k ++ pw ++ str "latke_kc_spake2" ++ own ++ peer ++ k)). intros z E0 E1.
  change (Z.of_nat (32 + 0)) with 32 in E0. change (Z.of_nat (32 + 1)) with 33 in E1. unfold u8 in E0, E1.
  Z.div_mod_to_equations. lia.
Qed.

(* ---------------------------------------------------------------- C37 (PAKEs) *)
Theorem cake_steps : forall P h r ssid pw rl s0 r',
  pk_new (CakePake P h) r ssid pw rl = Ret (s0, r') ->
  disciplined (pake_machine (CakePake P h)) ck_step rl s0.
Proof.
  intros P h r ssid pw rl s0 r' N. cbn in N. injection N as <- _.
  apply (disciplined_by (pake_machine (CakePake P h)) ck_step rl _ (fun s => ck_done s = true -> (3 <= ck_step s)%nat)).
  - reflexivity.
  - cbn. congruence.
  - intros s rr m s' o IV E. cbn [pake_machine CakePake m_run pk_run m_st PST] in *. unfold cake_run in E.
    destruct (ck_step s) as [|[|[|n]]] eqn:ES; ob E; injection E as <- _; cbn [ck_done ck_step]; split; try lia; intro D;
    try (specialize (IV D); lia).
  - intros s rr m s' o IV E. cbn [pake_machine CakePake m_run pk_run m_st PST] in *. unfold cake_run in E.
    destruct (ck_step s) as [|[|[|n]]] eqn:ES; ob E; injection E as _ E; discriminate E.
  - intros s rr m IV D. cbn [pake_machine CakePake m_run m_done pk_done pk_run m_st PST] in *. specialize (IV D).
    unfold cake_run. destruct (ck_step s) as [|[|[|n]]]; try lia. reflexivity.
Qed.
Theorem cpace_steps : forall C r ssid pw rl s0 r',
  pk_new (CpacePake C) r ssid pw rl = Ret (s0, r') ->
  disciplined (pake_machine (CpacePake C)) cp_step rl s0.
Proof.
  intros C r ssid pw rl s0 r' N. cbn in N. injection N as <- _.
  apply (disciplined_by (pake_machine (CpacePake C)) cp_step rl _ (fun s => cp_done s = true -> (3 <= cp_step s)%nat)).
  - reflexivity.
  - cbn. congruence.
  - intros s rr m s' o IV E. cbn [pake_machine CpacePake m_run pk_run m_st PST] in *. unfold cpace_run in E.
    destruct (cp_step s) as [|[|[|n]]] eqn:ES; ob E; injection E as <- _; cbn [cp_done cp_step]; split; try lia; intro D;
    try (specialize (IV D); lia).
  - intros s rr m s' o IV E. cbn [pake_machine CpacePake m_run pk_run m_st PST] in *. unfold cpace_run in E.
    destruct (cp_step s) as [|[|[|n]]] eqn:ES; ob E; injection E as _ E; discriminate E.
  - intros s rr m IV D. cbn [pake_machine CpacePake m_run m_done pk_done pk_run m_st PST] in *. specialize (IV D).
    unfold cpace_run. destruct (cp_step s) as [|[|[|n]]]; try lia. reflexivity.
Qed.
Theorem kc_spake2_steps : forall P S r ssid pw rl s0 r',
  pk_new (KcSpakePake P S) r ssid pw rl = Ret (s0, r') ->
  disciplined (pake_machine (KcSpakePake P S)) kc_step rl s0.
Proof.
  intros P S r ssid pw rl s0 r' N. cbn [KcSpakePake pk_new] in N. unfold kc_new in N.
  destruct (sp_start S pw ssid r) as [[st1 m1] r1]. injection N as <- _.
  apply (disciplined_by (pake_machine (KcSpakePake P S)) kc_step rl _ (fun s => kc_done s = true -> (4 <= kc_step s)%nat)).
  - reflexivity.
  - cbn. congruence.
  - intros s rr m s' o IV E. cbn [pake_machine KcSpakePake m_run pk_run m_st PST] in *. unfold kc_run in E.
    destruct (kc_step s) as [|[|[|[|n]]]] eqn:ES; ob E;
    try (match type of E with (if ?b then _ else _) = _ => destruct b; [|injection E as _ E; discriminate E] end);
    injection E as <- _; cbn [kc_done kc_step]; split; try lia; intro D; try (specialize (IV D); lia).
  - intros s rr m s' o IV E. cbn [pake_machine KcSpakePake m_run pk_run m_st PST] in *. unfold kc_run in E.
    destruct (kc_step s) as [|[|[|[|n]]]] eqn:ES; ob E;
    try (match type of E with (if ?b then _ else _) = _ => destruct b; [injection E as _ E; discriminate E|] end);
    try (injection E as <- _; cbn [kc_done kc_step]; split; try lia; intro D; try (specialize (IV D); lia)).
    injection E as _ E; discriminate E. injection E as _ E; discriminate E.
  - intros s rr m IV D. cbn [pake_machine KcSpakePake m_run m_done pk_done pk_run m_st PST] in *. specialize (IV D).
    unfold kc_run. destruct (kc_step s) as [|[|[|[|n]]]]; try lia. reflexivity.
Qed.
