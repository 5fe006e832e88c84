(** * PropsSaber: the properties C01-C11 of the Saber crate.

    Keys are quantified over everything the API can produce ([api_pk], [api_sk]); hash
    functions, random streams and byte strings are arbitrary. *)
From Coq Require Import ZArith List Lia Bool Arith String.
From Verif Require Import Base SaberPoly SaberCodec2 SaberCodec3 Ring SaberRing SaberKem
  SaberVec SaberNoise SaberSpec SaberDec SaberDec2 SaberFacts SaberCbd SaberWitness.
Import ListNotations.
Open Scope Z_scope.
Local Opaque gen_matrix gen_secret noise pmul padd pzero star E sha3_256 sha3_512.

(** ** Values obtainable through the API *)
(** A key is obtainable if it comes from key generation, from another obtainable key, or
    from loading bytes. *)
Inductive api_pk (h : saber_prims) (I : saber_impl) : pk_cpa -> Prop :=
| api_pk_cpa : forall r, api_pk h I (fst (fst (keygen_ind_cpa h I r)))
| api_pk_keygen : forall r, api_pk h I (public_key (fst (keygen h I r)))
| api_pk_load : forall b pk, is_bytes b -> pk_from_bytes I b = Ret (Ok pk) -> api_pk h I pk
| api_pk_sk_load : forall b sk, is_bytes b -> sk_from_bytes I b = Ret (Ok sk) -> api_pk h I (public_key sk).
Inductive api_sk (h : saber_prims) (I : saber_impl) : secret_key -> Prop :=
| api_sk_keygen : forall r, api_sk h I (fst (keygen h I r))
| api_sk_load : forall b sk, is_bytes b -> sk_from_bytes I b = Ret (Ok sk) -> api_sk h I sk.
Inductive api_sk_cpa (h : saber_prims) (I : saber_impl) : sk_cpa -> Prop :=
| api_skc_keygen : forall r, api_sk_cpa h I (snd (fst (keygen_ind_cpa h I r)))
| api_skc_load : forall b sk, is_bytes b -> indcpa_sk_from_bytes I b = Ok sk -> api_sk_cpa h I sk.

(** Bytes [off .. off+n) of a random stream. *)
Definition bytes_at (r : rng) (off n : nat) : bytes := map (fun i => u8 (r (off + i)%nat)) (seq 0 n).

Lemma pk_from_bytes_len : forall I b, pk_from_bytes I b =
  if (List.length b =? PUBLIC_KEY_BYTES I)%nat then pk_from_bytes I b
  else Ret (Err (BadLength "bytes" (List.length b) (PUBLIC_KEY_BYTES I))).
Proof. intros. unfold pk_from_bytes. destruct (_ =? _)%nat; reflexivity. Qed.

Lemma keygen_cpa_eq : forall h I r,
  keygen_ind_cpa h I r = (indcpa_keypair h I (bytes_at r 0 32) (bytes_at r 32 32), fun i => r (32 + (32 + i))%nat).
Proof. reflexivity. Qed.
Lemma keygen_eq : forall h I r,
  fst (keygen h I r) =
  let kp := indcpa_keypair h I (bytes_at r 0 32) (bytes_at r 32 32) in
  {| sk_z := bytes_at r 64 32; sk_hash_pk := sha3_256 h (pk_to_bytes (fst kp));
     sk_pk_cca := fst kp; sk_sk_cpa := snd kp |}.
Proof.
  intros. unfold keygen. rewrite keygen_cpa_eq. cbv zeta.
  destruct (indcpa_keypair h I (bytes_at r 0 32) (bytes_at r 32 32)) as [pk sk]. cbn [fst snd draw].
  f_equal.
Qed.
Lemma bytes_at_ok : forall r o n, List.length (bytes_at r o n) = n /\ is_bytes (bytes_at r o n).
Proof.
  intros. unfold bytes_at. rewrite map_length, seq_length. split; [reflexivity|].
  apply Forall_forall. intros x Hx. apply in_map_iff in Hx. destruct Hx as [i [<- _]]. apply u8_range.
Qed.

Lemma keygen_wf : forall h I r, param_set I -> wf_sk I (fst (keygen h I r)).
Proof.
  intros h I r HI. rewrite keygen_eq. cbv zeta.
  destruct (keypair_wf h I (bytes_at r 0 32) (bytes_at r 32 32) HI (proj1 (bytes_at_ok _ _ _)) (proj2 (bytes_at_ok _ _ _))) as [W1 W2].
  repeat split; cbn [sk_z sk_hash_pk sk_pk_cca sk_sk_cpa]; try apply bytes_at_ok; try apply sha3_256_length;
    try apply W1; try apply W2.
Qed.
Lemma sk_from_bytes_inv : forall I b sk, param_set I -> is_bytes b -> sk_from_bytes I b = Ret (Ok sk) ->
  wf_sk I sk /\ List.length b = SECRET_KEY_BYTES I /\ sk_to_bytes sk = b.
Proof.
  intros I b sk HI Hb H.
  destruct (Nat.eq_dec (List.length b) (SECRET_KEY_BYTES I)) as [L|L].
  - destruct (sk_from_bytes_wf I b HI L Hb) as [sk' [E1 [W T]]]. rewrite E1 in H. inversion H; subst. auto.
  - unfold sk_from_bytes in H. rewrite (proj2 (Nat.eqb_neq _ _) L) in H. discriminate.
Qed.
Lemma pk_from_bytes_inv : forall I b pk, param_set I -> is_bytes b -> pk_from_bytes I b = Ret (Ok pk) ->
  wf_pk I pk /\ List.length b = PUBLIC_KEY_BYTES I /\ pk_to_bytes pk = b.
Proof.
  intros I b pk HI Hb H.
  destruct (Nat.eq_dec (List.length b) (PUBLIC_KEY_BYTES I)) as [L|L].
  - destruct (pk_from_bytes_wf I b HI L Hb) as [pk' [E1 [W T]]]. rewrite E1 in H. inversion H; subst. auto.
  - unfold pk_from_bytes in H. rewrite (proj2 (Nat.eqb_neq _ _) L) in H. discriminate.
Qed.
Lemma api_sk_wf : forall h I sk, param_set I -> api_sk h I sk -> wf_sk I sk.
Proof.
  intros h I sk HI [r|b sk' Hb H].
  - apply keygen_wf; exact HI.
  - apply (sk_from_bytes_inv I b); assumption.
Qed.
Lemma api_pk_wf : forall h I pk, param_set I -> api_pk h I pk -> wf_pk I pk.
Proof.
  intros h I pk HI [r|r|b pk' Hb H|b sk' Hb H].
  - rewrite keygen_cpa_eq. cbn [fst]. apply keypair_wf; [exact HI|apply bytes_at_ok|apply bytes_at_ok].
  - apply (keygen_wf h I r HI).
  - apply (pk_from_bytes_inv I b); assumption.
  - apply (sk_from_bytes_inv I b sk' HI Hb H).
Qed.
Lemma api_sk_cpa_wf : forall h I sk, param_set I -> api_sk_cpa h I sk -> wf_vec (sK I) (sk_vec sk).
Proof.
  intros h I sk HI [r|b sk' Hb H].
  - rewrite keygen_cpa_eq. cbn [fst snd]. apply keypair_wf; [exact HI|apply bytes_at_ok|apply bytes_at_ok].
  - unfold indcpa_sk_from_bytes in H. destruct (Nat.eqb_spec (List.length b) (INDCPA_SECRETKEYBYTES I)) as [L|L]; [|discriminate].
    inversion H; subst. cbn [sk_vec]. apply from_mod_q_wf; [rewrite L; apply sk_size; exact HI|exact Hb].
Qed.

(** ** C01 *)
Theorem pk_reload_ok : forall h I pk, param_set I -> api_pk h I pk ->
  exists pk', pk_from_bytes I (pk_to_bytes pk) = Ret (Ok pk') /\ pk_to_bytes pk' = pk_to_bytes pk.
Proof.
  intros h I pk HI H. pose proof (api_pk_wf h I pk HI H) as W. eexists. split; [apply pk_from_to; assumption|].
  eapply pk_to_bytes_mod; eassumption.
Qed.
Theorem pk_bytes_reload_ok : forall I b, param_set I ->
  List.length b = PUBLIC_KEY_BYTES I -> is_bytes b ->
  exists pk, pk_from_bytes I b = Ret (Ok pk) /\ pk_to_bytes pk = b.
Proof.
  intros I b HI L Hb. destruct (pk_from_bytes_wf I b HI L Hb) as [pk [E1 [_ T]]]. exists pk. auto.
Qed.

(** ** C02 *)
Lemma encaps_m_mod : forall h I m pk, param_set I -> wf_pk I pk ->
  encaps_m h I m {| pk_vec := vmap_mod 1024 (pk_vec pk); pk_seed := pk_seed pk |} = encaps_m h I m pk.
Proof.
  intros. unfold encaps_m. rewrite (pk_to_bytes_mod I) by assumption. rewrite enc_pk_mod by assumption. reflexivity.
Qed.
Theorem encaps_reloaded_same : forall h I pk pk' r, param_set I -> api_pk h I pk ->
  pk_from_bytes I (pk_to_bytes pk) = Ret (Ok pk') ->
  encapsulate h I r pk' = encapsulate h I r pk /\
  encapsulate_ind_cpa h I r pk' = encapsulate_ind_cpa h I r pk.
Proof.
  intros h I pk pk' r HI HA H. pose proof (api_pk_wf h I pk HI HA) as W. rewrite pk_from_to in H by assumption.
  inversion H; subst. unfold encapsulate, encapsulate_ind_cpa. cbn [draw fst snd].
  rewrite encaps_m_mod by assumption. rewrite enc_pk_mod by assumption. split; reflexivity.
Qed.
(** Stronger: two obtainable keys with the same bytes behave the same. *)
Theorem same_bytes_same_encaps : forall h h' I pk1 pk2 r, param_set I -> api_pk h I pk1 -> api_pk h' I pk2 ->
  pk_to_bytes pk1 = pk_to_bytes pk2 ->
  encapsulate h I r pk1 = encapsulate h I r pk2 /\
  encapsulate_ind_cpa h I r pk1 = encapsulate_ind_cpa h I r pk2.
Proof.
  intros h h' I pk1 pk2 r HI H1 H2 EQ.
  destruct (pk_reload_ok h I pk1 HI H1) as [q [Q _]].
  destruct (encaps_reloaded_same h I pk1 q r HI H1 Q) as [A1 A2]. rewrite <- A1, <- A2.
  rewrite EQ in Q.
  pose proof (api_pk_wf h' I pk2 HI H2) as W. rewrite pk_from_to in Q by assumption.
  inversion Q; subst. unfold encapsulate, encapsulate_ind_cpa. cbn [draw fst snd].
  rewrite encaps_m_mod by assumption. rewrite enc_pk_mod by assumption. split; reflexivity.
Qed.

(** ** C03 *)
Lemma decaps_mod : forall h I sk ct, param_set I -> wf_sk I sk ->
  List.length ct = BYTES_CCA_DEC I -> is_bytes ct ->
  decapsulate h I ct {| sk_z := sk_z sk; sk_hash_pk := sk_hash_pk sk;
             sk_pk_cca := {| pk_vec := vmap_mod 1024 (pk_vec (sk_pk_cca sk));
                             pk_seed := pk_seed (sk_pk_cca sk) |};
             sk_sk_cpa := {| sk_vec := vmap_mod 8192 (sk_vec (sk_sk_cpa sk)) |} |} = decapsulate h I ct sk.
Proof.
  intros h I sk ct HI W L B. unfold decapsulate. cbn [sk_z sk_hash_pk sk_pk_cca sk_sk_cpa].
  rewrite dec_sk_mod by (auto; apply W). rewrite enc_pk_mod by (auto; apply W). reflexivity.
Qed.
Theorem sk_reload_same : forall h I sk, param_set I -> api_sk h I sk ->
  exists sk', sk_from_bytes I (sk_to_bytes sk) = Ret (Ok sk') /\
    sk_to_bytes sk' = sk_to_bytes sk /\
    (forall ct, List.length ct = BYTES_CCA_DEC I -> is_bytes ct ->
       decapsulate h I ct sk' = decapsulate h I ct sk) /\
    pk_to_bytes (public_key sk') = pk_to_bytes (public_key sk) /\
    (forall r, encapsulate h I r (public_key sk') = encapsulate h I r (public_key sk)).
Proof.
  intros h I sk HI HA. pose proof (api_sk_wf h I sk HI HA) as W. eexists. split; [apply sk_from_to; assumption|].
  destruct W as [W1 [W2 [W3 [W4 [W5 W6]]]]].
  split; [|split; [|split]].
  - unfold sk_to_bytes, indcpa_sk_to_bytes. cbn [sk_z sk_hash_pk sk_pk_cca sk_sk_cpa sk_vec].
    rewrite (read_mod_q_mod (sK I)) by exact W6. rewrite (pk_to_bytes_mod I) by exact W5. reflexivity.
  - intros ct L B. apply decaps_mod; try assumption. repeat split; auto; apply W5 || apply W6.
  - cbn [public_key sk_pk_cca]. apply (pk_to_bytes_mod I). exact W5.
  - intro r. cbn [public_key sk_pk_cca]. unfold encapsulate. cbn [draw fst snd].
    rewrite encaps_m_mod by assumption. reflexivity.
Qed.
Theorem sk_bytes_reload_ok : forall I b, param_set I ->
  List.length b = SECRET_KEY_BYTES I -> is_bytes b ->
  exists sk, sk_from_bytes I b = Ret (Ok sk) /\ sk_to_bytes sk = b.
Proof.
  intros I b HI L Hb. destruct (sk_from_bytes_wf I b HI L Hb) as [sk [E1 [_ T]]]. exists sk. auto.
Qed.
Theorem sk_cpa_reload_same : forall h I sk, param_set I -> api_sk_cpa h I sk ->
  exists sk', indcpa_sk_from_bytes I (indcpa_sk_to_bytes sk) = Ok sk' /\
    indcpa_sk_to_bytes sk' = indcpa_sk_to_bytes sk /\
    (forall ct, List.length ct = BYTES_CCA_DEC I -> is_bytes ct ->
       decapsulate_ind_cpa I ct sk' = decapsulate_ind_cpa I ct sk).
Proof.
  intros h I sk HI HA. pose proof (api_sk_cpa_wf h I sk HI HA) as W.
  exists {| sk_vec := vmap_mod 8192 (sk_vec sk) |}. split; [|split].
  - unfold indcpa_sk_from_bytes, indcpa_sk_to_bytes.
    rewrite (read_mod_q_length (sK I)) by exact W. rewrite sk_size by exact HI. rewrite Nat.eqb_refl.
    rewrite mod_q_roundtrip by exact W. reflexivity.
  - unfold indcpa_sk_to_bytes. cbn [sk_vec]. apply (read_mod_q_mod (sK I)). exact W.
  - intros ct L B. apply dec_sk_mod; assumption.
Qed.

(** ** C04 *)
Definition accepts {A} (x : outcome (res A saber_error)) : Prop := exists a, x = Ret (Ok a).
Definition rejects {A} (x : outcome (res A saber_error)) (actual expected : nat) : Prop :=
  exists name, x = Ret (Err (BadLength name actual expected)).
Lemma newtype_accepts : forall name n b,
  (List.length b = n -> newtype_from_bytes name n b = Ret (Ok b)) /\
  (List.length b <> n -> rejects (newtype_from_bytes name n b) (List.length b) n).
Proof.
  intros name n b. unfold newtype_from_bytes. split; intro H.
  - rewrite H, Nat.eqb_refl. reflexivity.
  - rewrite (proj2 (Nat.eqb_neq _ _) H). exists name. reflexivity.
Qed.
Theorem from_bytes_length_exact : forall I b, param_set I -> is_bytes b ->
  (List.length b = PUBLIC_KEY_BYTES I -> accepts (pk_from_bytes I b)) /\
  (List.length b <> PUBLIC_KEY_BYTES I -> rejects (pk_from_bytes I b) (List.length b) (PUBLIC_KEY_BYTES I)) /\
  (List.length b = SECRET_KEY_BYTES I -> accepts (sk_from_bytes I b)) /\
  (List.length b <> SECRET_KEY_BYTES I -> rejects (sk_from_bytes I b) (List.length b) (SECRET_KEY_BYTES I)) /\
  (List.length b = INDCPA_SECRETKEYBYTES I -> exists sk, indcpa_sk_from_bytes I b = Ok sk) /\
  (List.length b <> INDCPA_SECRETKEYBYTES I ->
     exists name, indcpa_sk_from_bytes I b = Err (BadLength name (List.length b) (INDCPA_SECRETKEYBYTES I))) /\
  (List.length b = BYTES_CCA_DEC I -> ciphertext_from_bytes I b = Ret (Ok b)) /\
  (List.length b <> BYTES_CCA_DEC I -> rejects (ciphertext_from_bytes I b) (List.length b) (BYTES_CCA_DEC I)) /\
  (List.length b = KEYBYTES -> shared_secret_from_bytes b = Ret (Ok b)) /\
  (List.length b <> KEYBYTES -> rejects (shared_secret_from_bytes b) (List.length b) KEYBYTES).
Proof.
  intros I b HI Hb.
  split; [|split; [|split; [|split; [|split; [|split; [|split; [|split; [|split]]]]]]]];
    try (apply newtype_accepts).
  - intro L. destruct (pk_from_bytes_wf I b HI L Hb) as [pk [E1 _]]. exists pk. exact E1.
  - intro L. unfold pk_from_bytes. rewrite (proj2 (Nat.eqb_neq _ _) L). exists "bytes"%string. reflexivity.
  - intro L. destruct (sk_from_bytes_wf I b HI L Hb) as [pk [E1 _]]. exists pk. exact E1.
  - intro L. unfold sk_from_bytes. rewrite (proj2 (Nat.eqb_neq _ _) L). exists "bytes"%string. reflexivity.
  - intro L. unfold indcpa_sk_from_bytes. rewrite L, Nat.eqb_refl. eexists. reflexivity.
  - intro L. unfold indcpa_sk_from_bytes. rewrite (proj2 (Nat.eqb_neq _ _) L). exists "bytes"%string. reflexivity.
Qed.
(** The two cases are exclusive: what is accepted is not rejected. *)
Theorem accepts_not_rejects : forall {A} (x : outcome (res A saber_error)) n m, accepts x -> ~ rejects x n m.
Proof. intros A x n m [a Ha] [nm Hn]. rewrite Ha in Hn. discriminate. Qed.

(** ** C05 *)
(** The tolerated noise, in units of 1/8 of a modulo-1024 coefficient. *)
Definition noise_margin (I : saber_impl) (k : nat) : Z :=
  match sK I with
  | 2%nat => if (k mod 8 =? 5)%nat then 512 else 1536
  | 3%nat => 1792
  | _ => 1984
  end.
Lemma noise_margin_eq : forall I k, param_set I -> noise_margin I k = margin I k.
Proof.
  intros I k [ | | ]; unfold noise_margin, margin; cbn [sK LightSaber Saber FireSaber].
  - change (2 =? 2)%nat with true. cbn [andb]. destruct (k mod 8 =? 5)%nat; reflexivity.
  - reflexivity.
  - reflexivity.
Qed.
(** The noise of an encryption: seed and noise seed of the key pair, coins of the
    encryption. *)
Definition noise_ok (h : saber_prims) (I : saber_impl) (seed ns coins : bytes) : Prop :=
  forall k, (k < 256)%nat ->
    Z.abs (noise (sK I) (gen_matrix h I seed) (map (map signed16) (gen_secret h I ns))
             (map (map signed16) (gen_secret h I coins)) k) <= noise_margin I k.
Lemma dec_ok : forall h I seed ns m coins, param_set I -> List.length m = 32%nat -> is_bytes m ->
  noise_ok h I seed ns coins ->
  indcpa_dec I (snd (indcpa_keypair h I seed ns))
    (indcpa_enc h I m coins (fst (indcpa_keypair h I seed ns))) = m.
Proof.
  intros h I seed ns m coins HI L B N. apply dec_correct; auto. intros k Hk.
  rewrite <- noise_margin_eq by exact HI. apply N. exact Hk.
Qed.
Theorem ind_cpa_correct : forall h I r r', param_set I ->
  noise_ok h I (bytes_at r 0 32) (bytes_at r 32 32) (bytes_at r' 32 32) ->
  let '(pk, sk, _) := keygen_ind_cpa h I r in
  let '(ss, ct, _) := encapsulate_ind_cpa h I r' pk in
  ss = bytes_at r' 0 32 /\ decapsulate_ind_cpa I ct sk = ss.
Proof.
  intros h I r r' HI N. rewrite keygen_cpa_eq.
  pose proof (dec_ok h I _ _ (bytes_at r' 0 32) _ HI (proj1 (bytes_at_ok _ _ _)) (proj2 (bytes_at_ok _ _ _)) N) as D.
  destruct (indcpa_keypair h I (bytes_at r 0 32) (bytes_at r 32 32)) as [pk sk]. cbn [fst snd] in D.
  unfold encapsulate_ind_cpa. cbn [draw fst snd]. split; [reflexivity|]. exact D.
Qed.
(** Also through serialisation of either key. *)
Theorem ind_cpa_correct_reloaded : forall h I r r' pk' sk', param_set I ->
  noise_ok h I (bytes_at r 0 32) (bytes_at r 32 32) (bytes_at r' 32 32) ->
  let '(pk, sk, _) := keygen_ind_cpa h I r in
  pk_from_bytes I (pk_to_bytes pk) = Ret (Ok pk') ->
  indcpa_sk_from_bytes I (indcpa_sk_to_bytes sk) = Ok sk' ->
  let '(ss, ct, _) := encapsulate_ind_cpa h I r' pk' in decapsulate_ind_cpa I ct sk' = ss.
Proof.
  intros h I r r' pk' sk' HI N.
  pose proof (ind_cpa_correct h I r r' HI N) as C.
  pose proof (api_pk_cpa h I r) as AP. pose proof (api_skc_keygen h I r) as AS.
  destruct (keygen_ind_cpa h I r) as [[pk sk] rr]. cbn [fst snd] in AP, AS. intros P S.
  destruct (encaps_reloaded_same h I pk pk' r' HI AP P) as [_ EQ]. rewrite EQ.
  destruct (sk_cpa_reload_same h I sk HI AS) as [sk2 [S2 [_ D]]]. rewrite S2 in S. inversion S; subst sk2.
  unfold encapsulate_ind_cpa in *. cbn [draw fst snd] in *. destruct C as [_ C].
  unfold decapsulate_ind_cpa in *. rewrite D; [exact C| |]; apply enc_length; exact HI.
Qed.

(** Non-vacuity: a concrete key pair and ciphertext for each parameter set. *)
Definition wit_r : rng := fun i => if (i <? 32)%nat then 0 else if (i <? 64)%nat then 1 else 3.
Definition wit_r' : rng := fun i => if (i <? 32)%nat then 77 else 2.
Lemma wit_seeds : bytes_at wit_r 0 32 = repeat 0 32 /\ bytes_at wit_r 32 32 = repeat 1 32 /\
  bytes_at wit_r' 32 32 = repeat 2 32.
Proof. repeat split. Qed.
Example noise_ok_saber : noise_ok saber_wit Saber (repeat 0 32) (repeat 1 32) (repeat 2 32).
Proof. intros k Hk. eapply Z.le_trans; [apply (saber_noise_small k Hk)|]. cbn. lia. Qed.
Example noise_ok_fire : noise_ok fire_wit FireSaber (repeat 0 32) (repeat 1 32) (repeat 2 32).
Proof. intros k Hk. eapply Z.le_trans; [apply (fire_noise_small k Hk)|]. cbn. lia. Qed.
Definition light_wit2 : saber_prims := wit_prims LightSaber 25 [31; 124; 240; 193; 7].
Local Transparent gen_matrix gen_secret.
Lemma light2_gen : gen_matrix light_wit2 LightSaber (repeat 0 32) = wit_matrix 2 (runs 25 4) /\
  gen_secret light_wit2 LightSaber (repeat 1 32) = single 2 pone /\
  gen_secret light_wit2 LightSaber (repeat 2 32) = single 2 (repeat 5 256).
Proof. repeat split; vm_compute; reflexivity. Qed.
Local Opaque gen_matrix gen_secret.
Example noise_ok_light : noise_ok light_wit2 LightSaber (repeat 0 32) (repeat 1 32) (repeat 2 32).
Proof.
  intros k Hk. destruct light2_gen as [GA [GS GT]].
  apply Z.le_trans with 508.
  - pose proof (wit_enc_noise light_wit2 LightSaber 25 5 k) as W. unfold enc_noise in W.
    rewrite W; cbn [sK LightSaber]; try lia; try assumption.
    apply wit_ok_spec; [|exact Hk]. vm_compute. reflexivity.
  - unfold noise_margin. cbn [sK LightSaber]. destruct (k mod 8 =? 5)%nat; lia.
Qed.
Example ind_cpa_saber_runs :
  let '(pk, sk, _) := keygen_ind_cpa saber_wit Saber wit_r in
  let '(ss, ct, _) := encapsulate_ind_cpa saber_wit Saber wit_r' pk in
  ss = repeat 77 32 /\ decapsulate_ind_cpa Saber ct sk = ss.
Proof.
  apply (ind_cpa_correct saber_wit Saber wit_r wit_r' ps_saber).
  destruct wit_seeds as [-> [-> ->]]. exact noise_ok_saber.
Qed.

(** ** C06 *)
(** The encryption coins derived by [encapsulate] from the message and the public key. *)
Definition coins_of (h : saber_prims) (m : bytes) (pk : pk_cpa) : bytes :=
  firstn 32 (sha3_512 h (sha3_256 h (pk_to_bytes pk) ++ m)).
Theorem cca_correct : forall h I r r', param_set I ->
  let sk := fst (keygen h I r) in
  noise_ok h I (bytes_at r 0 32) (bytes_at r 32 32) (coins_of h (bytes_at r' 0 32) (public_key sk)) ->
  let '(ss, ct, _) := encapsulate h I r' (public_key sk) in
  decapsulate h I ct sk = ss.
Proof.
  intros h I r r' HI sk N. pose proof (keygen_wf h I r HI) as W. fold sk in W.
  unfold encapsulate. cbn [draw fst snd]. fold (bytes_at r' 0 32).
  change (map (fun i : nat => u8 (r' i)) (seq 0 KEYBYTES)) with (bytes_at r' 0 32).
  unfold encaps_m.
  set (m := bytes_at r' 0 32) in *.
  set (kr := sha3_512 h (sha3_256 h (pk_to_bytes (public_key sk)) ++ m)).
  change (firstn KEYBYTES kr) with (coins_of h m (public_key sk)).
  set (ct := indcpa_enc h I m (coins_of h m (public_key sk)) (public_key sk)).
  assert (D : indcpa_dec I (sk_sk_cpa sk) ct = m).
  { unfold ct, sk. rewrite keygen_eq in *. cbn [sk_sk_cpa public_key sk_pk_cca].
    apply dec_ok; auto; apply bytes_at_ok. }
  assert (Hh : sk_hash_pk sk = sha3_256 h (pk_to_bytes (public_key sk))).
  { unfold sk. rewrite keygen_eq. reflexivity. }
  destruct (enc_length h I m (coins_of h m (public_key sk)) (public_key sk) HI) as [CL CB]. fold ct in CL, CB.
  rewrite decapsulate_spec by assumption. cbv zeta. unfold decapsulate_ind_cpa. rewrite D, Hh. fold kr.
  change (firstn 32 kr) with (coins_of h m (public_key sk)). change (sk_pk_cca sk) with (public_key sk).
  fold ct. rewrite beq_refl. reflexivity.
Qed.
Theorem cca_correct_reloaded : forall h I r r' pk' sk', param_set I ->
  let sk := fst (keygen h I r) in
  pk_from_bytes I (pk_to_bytes (public_key sk)) = Ret (Ok pk') ->
  sk_from_bytes I (sk_to_bytes sk) = Ret (Ok sk') ->
  noise_ok h I (bytes_at r 0 32) (bytes_at r 32 32) (coins_of h (bytes_at r' 0 32) (public_key sk)) ->
  let '(ss, ct, _) := encapsulate h I r' pk' in
  decapsulate h I ct sk = ss /\ decapsulate h I ct sk' = ss.
Proof.
  intros h I r r' pk' sk' HI sk P S N.
  pose proof (cca_correct h I r r' HI N) as C. fold sk in C.
  destruct (encaps_reloaded_same h I (public_key sk) pk' r' HI (api_pk_keygen h I r) P) as [EQ _].
  rewrite EQ. destruct (sk_reload_same h I sk HI (api_sk_keygen h I r)) as [sk2 [S2 [_ [D _]]]].
  rewrite S2 in S. inversion S; subst sk2.
  unfold encapsulate in *. cbn [draw fst snd] in *.
  destruct (encaps_m h I (map (fun i => u8 (r' i)) (seq 0 KEYBYTES)) (public_key sk)) as [ss ct] eqn:EE.
  split; [exact C|]. rewrite D; [exact C| |]; unfold encaps_m in EE; inversion EE; apply enc_length; exact HI.
Qed.
Example cca_saber_runs :
  let sk := fst (keygen saber_wit Saber wit_r) in
  let '(ss, ct, _) := encapsulate saber_wit Saber wit_r' (public_key sk) in
  decapsulate saber_wit Saber ct sk = ss.
Proof.
  apply (cca_correct saber_wit Saber wit_r wit_r' ps_saber).
  destruct wit_seeds as [-> [-> _]].
  assert (HC : forall m pk, coins_of saber_wit m pk = repeat 2 32) by reflexivity.
  rewrite HC. exact noise_ok_saber.
Qed.

(** ** C07 *)
Theorem implicit_rejection : forall h I sk ct, param_set I -> api_sk h I sk ->
  List.length ct = BYTES_CCA_DEC I -> is_bytes ct ->
  let m := decapsulate_ind_cpa I ct (sk_sk_cpa sk) in
  let kr := sha3_512 h (sk_hash_pk sk ++ m) in
  let again := indcpa_enc h I m (firstn 32 kr) (public_key sk) in
  List.length (decapsulate h I ct sk) = 32%nat /\ is_bytes (decapsulate h I ct sk) /\
  (again = ct -> decapsulate h I ct sk = sha3_256 h (sha3_256 h ct ++ skipn 32 kr)) /\
  (again <> ct -> decapsulate h I ct sk = sha3_256 h (sk_z sk ++ skipn 32 kr)).
Proof.
  intros h I sk ct HI HA L B m kr again. pose proof (api_sk_wf h I sk HI HA) as W.
  split; [apply sha3_256_length|split; [apply sha3_256_length|]].
  rewrite decapsulate_spec by assumption. cbv zeta. fold m kr.
  change (indcpa_enc h I m (firstn 32 kr) (sk_pk_cca sk)) with again. split; intro H.
  - rewrite (proj2 (beq_spec _ _) H). reflexivity.
  - rewrite (proj2 (beq_false _ _) H). reflexivity.
Qed.
(** Consequence: a ciphertext that is not the deterministic re-encryption of anything is
    always rejected; in particular the result on it does not depend on the ciphertext hash. *)
Theorem reject_invalid : forall h I sk ct, param_set I -> api_sk h I sk ->
  List.length ct = BYTES_CCA_DEC I -> is_bytes ct ->
  (forall m, List.length m = 32%nat -> is_bytes m ->
     indcpa_enc h I m (firstn 32 (sha3_512 h (sk_hash_pk sk ++ m))) (public_key sk) <> ct) ->
  exists k, decapsulate h I ct sk = sha3_256 h (sk_z sk ++ k) /\ List.length k = 32%nat.
Proof.
  intros h I sk ct HI HA L B H.
  destruct (implicit_rejection h I sk ct HI HA L B) as [_ [_ [_ R]]].
  eexists. split; [apply R; apply H; apply (dec_length I _ ct HI B)|].
  rewrite skipn_length. rewrite (proj1 (sha3_512_length h _)). reflexivity.
Qed.

(** ** C08 *)
(** A hint polynomial: 256 coefficients of sRECON+1 bits. *)
Definition hint_poly (I : saber_impl) (p : poly) : Prop :=
  List.length p = 256%nat /\ Forall (fun x => 0 <= x < 2 ^ (sRECON I + 1)) p.
Lemma hint_at : forall I p, hint_poly I p -> forall j, (j < DEG)%nat -> 0 <= at_ p j < 2 ^ (sRECON I + 1).
Proof.
  intros I p [L H] j Hj. rewrite Forall_forall in H. apply H. apply nth_In. rewrite L. exact Hj.
Qed.
Theorem hint_roundtrip : forall I p, I = Saber \/ I = FireSaber -> hint_poly I p ->
  recon_unpack I (recon_pack I p) = p.
Proof.
  intros I p HI Hp. assert (PS : param_set I) by (destruct HI; subst; constructor).
  pose proof (hint_at I p Hp) as HA. destruct Hp as [L _].
  assert (L' : List.length (recon_unpack I (recon_pack I p)) = DEG).
  { apply (recon_roundtrip I p 0 PS L HA). unfold DEG. lia. }
  apply poly_ext; [rewrite L'; auto|]. rewrite L'. intros k Hk.
  destruct (recon_roundtrip I p k PS L HA Hk) as [_ R]. rewrite R. unfold hint_back.
  destruct HI; subst; reflexivity.
Qed.
(** The hint inside every ciphertext of the parameter set is such a polynomial. *)
Theorem enc_hint_is_hint : forall h I m coins pk, param_set I ->
  exists p, hint_poly I p /\
    skipn (POLYVECCOMPRESSEDBYTES I) (indcpa_enc h I m coins pk) = recon_pack I p.
Proof.
  intros h I m coins pk HI. destruct (enc_split h I m coins pk HI) as [_ S]. rewrite S.
  unfold recon_data_gen. eexists. split; [|reflexivity].
  set (q := padd (from_msg m) (vmul (pk_vec pk) (gen_secret h I coins))).
  assert (Lq : List.length q = 256%nat) by (apply padd_wf; [apply from_msg_length|apply vmul_wf]).
  split.
  - unfold pshr, reduce. rewrite !map_length. exact Lq.
  - apply Forall_forall. intros x Hx. unfold pshr, reduce in Hx. apply in_map_iff in Hx.
    destruct Hx as [y [<- Hy]]. apply in_map_iff in Hy. destruct Hy as [z [<- _]].
    rewrite hint_coeff by (pose proof (cexp_range I HI); unfold cexp in *; lia).
    apply (hint_range I z HI).
Qed.
(** LightSaber: exactly which hints survive.  Coefficients whose index is 5 modulo 8 come
    back with bit 0 replaced by bit 2. *)
Theorem light_hint_exact : forall p k, hint_poly LightSaber p -> (k < 256)%nat ->
  let x := nth k p 0 in
  nth k (recon_unpack LightSaber (recon_pack LightSaber p)) 0 =
  if (k mod 8 =? 5)%nat then x - x mod 2 + x / 4 else x.
Proof.
  intros p k Hp Hk. pose proof (hint_at LightSaber p Hp) as HA. destruct Hp as [L _].
  destruct (recon_roundtrip LightSaber p k ps_light L HA Hk) as [_ R]. cbv zeta.
  unfold at_ in R. rewrite R. unfold hint_back. change (sK LightSaber =? 2)%nat with true. cbn [andb].
  unfold damage3. reflexivity.
Qed.
Theorem light_hint_refuted : exists p, hint_poly LightSaber p /\
  recon_unpack LightSaber (recon_pack LightSaber p) <> p.
Proof.
  exists (repeat 1 256). split.
  - split; [apply repeat_length|]. apply Forall_forall. intros x Hx. apply repeat_spec in Hx. subst. cbn. lia.
  - intro H. apply (f_equal (fun l => nth 5 l 0)) in H. vm_compute in H. discriminate.
Qed.
(** The consequence at the API: an honest LightSaber key pair and an honest ciphertext with
    noise within the margin of an undamaged hint (1536) that does not decrypt. *)
Definition ones_r : rng := fun i => if (i <? 32)%nat then 255 else 2.
Theorem light_decryption_failure :
  (forall k, (k < 256)%nat ->
    Z.abs (noise 2 (gen_matrix light_wit LightSaber (bytes_at wit_r 0 32))
      (map (map signed16) (gen_secret light_wit LightSaber (bytes_at wit_r 32 32)))
      (map (map signed16) (gen_secret light_wit LightSaber (bytes_at ones_r 32 32))) k) <= 1536) /\
  let '(pk, sk, _) := keygen_ind_cpa light_wit LightSaber wit_r in
  let '(ss, ct, _) := encapsulate_ind_cpa light_wit LightSaber ones_r pk in
  decapsulate_ind_cpa LightSaber ct sk <> ss.
Proof.
  split.
  - intros k Hk. change (bytes_at wit_r 0 32) with (repeat 0 32). change (bytes_at wit_r 32 32) with (repeat 1 32).
    change (bytes_at ones_r 32 32) with (repeat 2 32).
    eapply Z.le_trans; [apply (light_noise_small k Hk)|]. lia.
  - rewrite keygen_cpa_eq.
    change (bytes_at wit_r 0 32) with (repeat 0 32). change (bytes_at wit_r 32 32) with (repeat 1 32).
    pose proof light_dec_failure as F. cbv zeta in F.
    destruct (indcpa_keypair light_wit LightSaber (repeat 0 32) (repeat 1 32)) as [pk sk]. cbn [fst snd] in F.
    unfold encapsulate_ind_cpa. cbn [draw fst snd]. intro H. unfold decapsulate_ind_cpa in H.
    change (map (fun i : nat => u8 (ones_r i)) (seq 0 KEYBYTES)) with ones_msg in H.
    change (map (fun i : nat => u8 (ones_r (KEYBYTES + i)%nat)) (seq 0 KEYBYTES)) with (repeat 2 32) in H.
    rewrite H in F. vm_compute in F. discriminate F.
Qed.
(** With fixed coins, encryption is injective in the message (for every parameter set: the
    damaged hint bit of LightSaber is never the bit that carries the message). *)
Lemma hint_top : forall I k x x', param_set I -> 0 <= x < 1024 -> 0 <= x' < 1024 ->
  hint_back I k (x / 2 ^ cexp I) = hint_back I k (x' / 2 ^ cexp I) -> x / 512 = x' / 512.
Proof.
  intros I k x x' HI Hx Hx' H. unfold hint_back in H.
  destruct HI; cbn [sK LightSaber Saber FireSaber] in H.
  - change (2 ^ cexp LightSaber) with 128 in H. change (2 =? 2)%nat with true in H. cbn [andb] in H.
    destruct (k mod 8 =? 5)%nat; [unfold damage3 in H|]; Z.div_mod_to_equations; lia.
  - change (2 ^ cexp Saber) with 64 in H. change (3 =? 2)%nat with false in H. cbn [andb] in H.
    Z.div_mod_to_equations; lia.
  - change (2 ^ cexp FireSaber) with 16 in H. change (4 =? 2)%nat with false in H. cbn [andb] in H.
    Z.div_mod_to_equations; lia.
Qed.
Lemma top_bit : forall b b' v, b = 0 \/ b = 1 -> b' = 0 \/ b' = 1 ->
  ((512 * b + v) mod 1024) / 512 = ((512 * b' + v) mod 1024) / 512 -> b = b'.
Proof. intros b b' v [-> | ->] [-> | ->] H; try reflexivity; exfalso; Z.div_mod_to_equations; lia. Qed.
Theorem enc_injective : forall h I m m' coins pk, param_set I ->
  List.length m = 32%nat -> is_bytes m -> List.length m' = 32%nat -> is_bytes m' ->
  indcpa_enc h I m coins pk = indcpa_enc h I m' coins pk -> m = m'.
Proof.
  intros h I m m' coins pk HI L B L' B' H.
  destruct (enc_split h I m coins pk HI) as [_ S]. destruct (enc_split h I m' coins pk HI) as [_ S'].
  rewrite H, S' in S. clear S' H.
  set (v := vmul (pk_vec pk) (gen_secret h I coins)) in *.
  assert (Lv : List.length v = DEG) by apply vmul_wf.
  assert (BIT : forall k, (k < DEG)%nat -> msg_bit m k = msg_bit m' k).
  { intros k Hk.
    assert (HH : forall m, List.length m = 32%nat ->
      at_ (recon_unpack I (recon_data_gen I (padd (from_msg m) v))) k
      = hint_back I k (((512 * msg_bit m k + at_ v k) mod 1024) / 2 ^ cexp I)).
    { intros m0 L0. unfold recon_data_gen.
      assert (Lp : List.length (padd (from_msg m0) v) = DEG) by (apply padd_wf; [apply from_msg_length|exact Lv]).
      assert (AT : forall j, (j < DEG)%nat ->
        at_ (pshr (reduce P (padd (from_msg m0) v)) (EPS_P - sRECON I - 1)) j
        = (at_ (padd (from_msg m0) v) j mod 1024) / 2 ^ cexp I).
      { intros j Hj. unfold pshr. rewrite map_at by (unfold reduce; rewrite map_length, Lp; exact Hj).
        unfold reduce. rewrite map_at by (rewrite Lp; exact Hj).
        apply hint_coeff. pose proof (cexp_range I HI). unfold cexp in *. lia. }
      destruct (recon_roundtrip I (pshr (reduce P (padd (from_msg m0) v)) (EPS_P - sRECON I - 1)) k HI) as [_ R].
      - unfold pshr, reduce. rewrite !map_length. exact Lp.
      - intros j Hj. rewrite AT by exact Hj. apply hint_range. exact HI.
      - exact Hk.
      - rewrite R, AT by exact Hk. rewrite padd_at by (auto using from_msg_length).
        rewrite from_msg_at by auto. f_equal. f_equal. apply u16_mod; [lia|exact d10]. }
    pose proof (HH m L) as H1. pose proof (HH m' L') as H2. rewrite S in H2. rewrite H2 in H1.
    apply (top_bit _ _ (at_ v k)); try apply msg_bit_01.
    apply (hint_top I k); try (apply Z.mod_pos_bound; lia); auto. }
  rewrite <- (read_msg_bits m B), <- (read_msg_bits m' B'). f_equal.
  apply (nth_ext _ _ 0 0); [rewrite !byte_bits_length, L, L'; reflexivity|].
  rewrite byte_bits_length. intros k Hk. rewrite !nth_flat_bits by (rewrite ?L'; lia). apply BIT.
  rewrite L in Hk. unfold DEG. lia.
Qed.

(** The same at the CCA level: encapsulator and decapsulator end with different secrets. *)
Lemma wit_kr : forall x, firstn 32 (sha3_512 light_wit x) = repeat 2 32 /\
  skipn 32 (sha3_512 light_wit x) = repeat 2 32.
Proof. intro x. split; reflexivity. Qed.
Lemma wit_sha_hd : forall x, hd 0 (sha3_256 light_wit x) = u8 (nth 0 x 0).
Proof. intro x. reflexivity. Qed.
Lemma light_cca_aux : forall sk, wf_sk LightSaber sk ->
  let ct := indcpa_enc light_wit LightSaber ones_msg (repeat 2 32) (sk_pk_cca sk) in
  indcpa_dec LightSaber (sk_sk_cpa sk) ct <> ones_msg -> nth 0 (sk_z sk) 0 <> nth 0 ct 0 ->
  decapsulate light_wit LightSaber ct sk <> sha3_256 light_wit (sha3_256 light_wit ct ++ repeat 2 32).
Proof.
  intros sk W ct NM NZ.
  destruct (enc_length light_wit LightSaber ones_msg (repeat 2 32) (sk_pk_cca sk) ps_light) as [CL CB].
  fold ct in CL, CB.
  rewrite decapsulate_spec by (auto using ps_light). cbv zeta.
  lazymatch goal with |- context [sha3_512 light_wit ?x] =>
    let H := fresh in pose proof (wit_kr x) as H; unfold KEYBYTES;
    revert H; generalize (sha3_512 light_wit x); intros kr H; rewrite (proj1 H), (proj2 H); clear kr H end.
  set (m := decapsulate_ind_cpa LightSaber ct (sk_sk_cpa sk)).
  assert (NE : indcpa_enc light_wit LightSaber m (repeat 2 32) (sk_pk_cca sk) <> ct).
  { intro EQ. change (m <> ones_msg) in NM. apply NM.
    assert (M1 : List.length m = 32%nat /\ is_bytes m) by exact (dec_length LightSaber (sk_sk_cpa sk) ct ps_light CB).
    destruct M1 as [M1 M2]. clearbody m.
    refine (enc_injective light_wit LightSaber m ones_msg (repeat 2 32) (sk_pk_cca sk) ps_light M1 M2 _ _ EQ).
    - reflexivity.
    - apply Forall_forall. intros x Hx. apply repeat_spec in Hx. subst. unfold is_byte. lia. }
  rewrite (proj2 (beq_false _ _) NE). intro EQ. apply (f_equal (hd 0)) in EQ. rewrite !wit_sha_hd in EQ.
  assert (B0 : is_byte (nth 0 (sk_z sk) 0)) by (apply (at_byte (sk_z sk) 0); apply W).
  assert (B1 : is_byte (nth 0 ct 0)) by (apply (at_byte ct 0); exact CB).
  assert (LZ : List.length (sk_z sk) = 32%nat) by apply W.
  rewrite app_nth1 in EQ by lia. rewrite app_nth1 in EQ by (rewrite (proj1 (sha3_256_length _ _)); lia).
  assert (N0 : nth 0 (sha3_256 light_wit ct) 0 = hd 0 (sha3_256 light_wit ct)).
  { destruct (sha3_256 light_wit ct); reflexivity. }
  rewrite N0, wit_sha_hd in EQ. rewrite (u8_id _ B0), (u8_id _ B1), ?(u8_id _ B1) in EQ.
  apply NZ. exact EQ.
Qed.
Theorem light_cca_failure : exists r r',
  let sk := fst (keygen light_wit LightSaber r) in
  let '(ss, ct, _) := encapsulate light_wit LightSaber r' (public_key sk) in
  decapsulate light_wit LightSaber ct sk <> ss.
Proof.
  pose proof light_dec_failure as F. cbv zeta in F.
  pose (kp := indcpa_keypair light_wit LightSaber (repeat 0 32) (repeat 1 32)).
  pose (c0 := nth 0 (indcpa_enc light_wit LightSaber ones_msg (repeat 2 32) (fst kp)) 0).
  pose (r := fun i : nat => if (i <? 32)%nat then 0 else if (i <? 64)%nat then 1 else c0 + 1).
  exists r, ones_r. lazymatch goal with |- let sk := ?t in _ => change t with (fst (keygen light_wit LightSaber r)) end.
  pose proof (keygen_wf light_wit LightSaber r ps_light) as W.
  pose proof (keygen_eq light_wit LightSaber r) as K. cbv zeta in K.
  assert (R1 : bytes_at r 0 32 = repeat 0 32) by reflexivity. assert (R2 : bytes_at r 32 32 = repeat 1 32) by reflexivity.
  rewrite R1, R2 in K.
  assert (Z0 : nth 0 (bytes_at r 64 32) 0 = u8 (c0 + 1)) by reflexivity.
  change (indcpa_keypair light_wit LightSaber (repeat 0 32) (repeat 1 32)) with kp in K, F.
  revert W K. generalize (fst (keygen light_wit LightSaber r)). intros sk W K.
  assert (KP : sk_pk_cca sk = fst kp) by (rewrite K; reflexivity).
  assert (KS : sk_sk_cpa sk = snd kp) by (rewrite K; reflexivity).
  assert (KZ : sk_z sk = bytes_at r 64 32) by (rewrite K; reflexivity).
  pose proof (light_cca_aux sk W) as A. cbv zeta in A. rewrite KP, KS, KZ in A.
  unfold encapsulate. cbn [draw fst snd].
  change (map (fun i : nat => u8 (ones_r i)) (seq 0 KEYBYTES)) with ones_msg.
  unfold encaps_m. lazymatch goal with |- context [sha3_512 light_wit ?x] =>
    let H := fresh in pose proof (wit_kr x) as H; unfold KEYBYTES;
    revert H; generalize (sha3_512 light_wit x); intros kr H; rewrite (proj1 H), (proj2 H); clear kr H end. unfold public_key. rewrite KP.
  assert (B1 : is_byte c0).
  { exact (at_byte _ 0 (proj2 (enc_length light_wit LightSaber ones_msg (repeat 2 32) (fst kp) ps_light))). }
  apply A.
  - intro EQ. rewrite EQ in F. vm_compute in F. discriminate F.
  - rewrite Z0. change (u8 (c0 + 1) <> c0). clearbody c0. clear - B1. unfold u8, is_byte in *. Z.div_mod_to_equations. lia.
Qed.

(** ** C09 *)
Theorem poly_mul_textbook : forall a b k, (k < 256)%nat ->
  nth k (pmul a b) 0 = negacyclic 256 a b k mod 65536.
Proof.
  assert (D : 256%nat = DEG) by reflexivity. rewrite D. intros a b k Hk.
  assert (U : forall x, x mod 65536 = u16 x) by reflexivity. rewrite U.
  assert (N : forall l, nth k l 0 = at_ l k) by reflexivity. rewrite N.
  apply pmul_spec. exact Hk.
Qed.
Theorem poly_ring_laws : forall a b c, wf_poly a -> wf_poly b -> wf_poly c ->
  wf_poly (pmul a b) /\ wf_poly (padd a b) /\
  padd a b = padd b a /\ padd (padd a b) c = padd a (padd b c) /\ padd a pzero = a /\
  padd a (psub pzero a) = pzero /\ psub a b = padd a (psub pzero b) /\
  pmul a b = pmul b a /\ pmul (pmul a b) c = pmul a (pmul b c) /\
  pmul a (padd b c) = padd (pmul a b) (pmul a c) /\ pmul pone a = a.
Proof.
  intros a b c Ha Hb Hc.
  assert (PT : forall x y, wf_poly x -> wf_poly y -> (forall k, (k < 256)%nat -> at_ x k = at_ y k) -> x = y).
  { intros x y [Lx _] [Ly _] H. apply poly_ext; [rewrite Lx, Ly; reflexivity|]. rewrite Lx. exact H. }
  assert (RG : forall x k, wf_poly x -> 0 <= at_ x k < 65536).
  { intros x k [_ Hx]. apply (at_u16 x k Hx). }
  pose proof (padd_wf a b (proj1 Ha) (proj1 Hb)) as Wab.
  pose proof (padd_wf b a (proj1 Hb) (proj1 Ha)) as Wba.
  pose proof (padd_wf b c (proj1 Hb) (proj1 Hc)) as Wbc.
  pose proof (padd_wf a pzero (proj1 Ha) (proj1 pzero_wf)) as Wa0.
  assert (SW : forall x y, wf_poly x -> wf_poly y -> wf_poly (psub x y)).
  { intros x y [Lx _] [Ly _]. split; [unfold psub; rewrite map2_length, Lx, Ly; reflexivity|].
    apply map2_u16. intros. apply u16_range. }
  assert (SA : forall x y k, wf_poly x -> wf_poly y -> (k < 256)%nat -> at_ (psub x y) k = u16 (at_ x k - at_ y k)).
  { intros x y k [Lx _] [Ly _] Hk. unfold psub. rewrite map2_at; [reflexivity|rewrite Lx; exact Hk|rewrite Ly; exact Hk]. }
  assert (AA : forall x y k, wf_poly x -> wf_poly y -> (k < 256)%nat -> at_ (padd x y) k = u16 (at_ x k + at_ y k)).
  { intros x y k [Lx _] [Ly _] Hk. apply padd_at; auto. }
  pose proof (SW pzero a pzero_wf Ha) as Wna. pose proof (SW pzero b pzero_wf Hb) as Wnb.
  split; [apply pmul_wf|]. split; [exact Wab|].
  split. { apply PT; auto. intros k Hk. rewrite !AA by auto. f_equal. lia. }
  split. { apply PT; [apply padd_wf; [apply Wab|apply Hc]|apply padd_wf; [apply Ha|apply Wbc]|]. intros k Hk.
    rewrite !AA by auto. unfold u16. rewrite Zplus_mod_idemp_l, Zplus_mod_idemp_r. f_equal. lia. }
  split. { apply PT; auto. intros k Hk. rewrite AA by (auto using pzero_wf). rewrite at_pzero, Z.add_0_r.
    apply u16_id. apply RG. exact Ha. }
  split. { apply PT; [apply padd_wf; [apply Ha|apply Wna]|apply pzero_wf|]. intros k Hk.
    rewrite AA by auto. rewrite SA by (auto using pzero_wf). rewrite at_pzero. unfold u16.
    rewrite Zplus_mod_idemp_r. replace (at_ a k + (0 - at_ a k)) with 0 by lia. reflexivity. }
  split. { apply PT; [apply SW; assumption|apply padd_wf; [apply Ha|apply Wnb]|]. intros k Hk.
    rewrite AA by auto. rewrite !SA by (auto using pzero_wf). rewrite at_pzero. unfold u16.
    rewrite Zplus_mod_idemp_r. f_equal; lia. }
  split; [apply pmul_comm|]. split; [apply pmul_assoc|]. split; [apply pmul_add_r; assumption|].
  apply wf_eq; [apply pmul_wf|exact Ha|].
  eapply cong_trans; [apply (E_pmul 65536 ltac:(lia) d16)|]. intro k. rewrite star_one by apply E_anti. reflexivity.
Qed.
Theorem matrix_transpose_identity : forall K (A : matrix) (s t : vec),
  wf_matrix K A -> wf_vec K s -> wf_vec K t ->
  vmul (mat_mul A s) t = vmul s (mat_mul_transpose A t).
Proof.
  intros K A s t WA Ws Wt.
  assert (ROWS : forall row : vec, In row A -> List.length row = K).
  { intros row Hr. destruct WA as [_ F]. rewrite Forall_forall in F. apply (F row Hr). }
  pose proof (mat_mul_wf K A s (proj1 WA)) as W1. pose proof (mat_mul_transpose_wf K A t (proj1 WA)) as W2.
  apply wf_eq; try apply vmul_wf.
  eapply cong_trans; [apply (E_vmul 65536 ltac:(lia) d16 K); [apply W1|apply Wt]|].
  eapply cong_trans; [|apply cong_sym; apply (E_vmul 65536 ltac:(lia) d16 K); [apply Ws|apply W2]].
  eapply cong_trans; [apply (cong_dot 65536) with (F' := fun i => dot K (V (nth i A [])) (V s)) (G' := V t)|].
  - intros j Hj. apply (V_mat_mul 65536 ltac:(lia) d16 K); auto; try apply WA; apply Ws.
  - intros j Hj. apply cong_refl.
  - eapply cong_trans; [|apply (cong_dot 65536) with (F := V s) (G := fun i => dot K (fun j => V (nth j A []) i) (V t))].
    + intro k. rewrite (dot_transpose K (fun i => V (nth i A []))) by (intros; apply V_anti). reflexivity.
    + intros j Hj. apply cong_refl.
    + intros j Hj. apply cong_sym. apply (V_mat_mul_transpose 65536 ltac:(lia) d16 K); auto. apply WA.
Qed.
Example matrix_identity_applies : wf_matrix 2 (gen_matrix light_wit LightSaber [])
  /\ wf_vec 2 (gen_secret light_wit LightSaber []).
Proof. split; [apply (gen_matrix_wf light_wit LightSaber)|apply (gen_secret_wf light_wit LightSaber [] ps_light)]. Qed.

(** ** C10 *)
Theorem secret_binomial : forall h I seed p c, param_set I -> (p < sK I)%nat -> (c < 256)%nat ->
  signed16 (nth c (nth p (gen_secret h I seed) []) 0)
    = binomial_sample (shake128 h seed) (sMU I) (256 * p + c) /\
  - Z.of_nat (sMU I) / 2 <= signed16 (nth c (nth p (gen_secret h I seed) []) 0) <= Z.of_nat (sMU I) / 2.
Proof.
  intros h I seed p c HI Hp Hc. rewrite (gen_secret_spec h I seed p c HI Hp Hc). split; [reflexivity|].
  assert (R : forall S i n, 0 <= ones S i n <= Z.of_nat n).
  { intros S i n. unfold ones.
    assert (RR : forall l : list nat, 0 <= sum_list (map (fun j => stream_bit S (i + j)) l) <= Z.of_nat (List.length l)).
    { induction l as [|x l IH]; cbn [map sum_list List.length]; [lia|].
      assert (0 <= stream_bit S (i + x) < 2) by (unfold stream_bit; apply Z.mod_pos_bound; lia). lia. }
    specialize (RR (seq 0 n)). rewrite seq_length in RR. exact RR. }
  unfold binomial_sample.
  pose proof (R (shake128 h seed) (sMU I * (256 * p + c))%nat (sMU I / 2)%nat).
  pose proof (R (shake128 h seed) (sMU I * (256 * p + c) + sMU I / 2)%nat (sMU I / 2)%nat).
  assert (M : Z.of_nat (sMU I / 2) = Z.of_nat (sMU I) / 2 /\ - Z.of_nat (sMU I) / 2 = - Z.of_nat (sMU I / 2))
    by (destruct HI; split; reflexivity).
  lia.
Qed.
(** Each secret polynomial vector has K polynomials of 256 coefficients. *)
Theorem secret_shape : forall h I seed, param_set I ->
  List.length (gen_secret h I seed) = sK I /\ Forall (fun p => List.length p = 256%nat) (gen_secret h I seed).
Proof.
  intros h I seed HI. destruct (gen_secret_wf h I seed HI) as [L F]. split; [exact L|].
  eapply Forall_impl; [|exact F]. intros a [Ha _]. exact Ha.
Qed.

(** ** C11 *)
Theorem documented_sizes :
  (BYTES_CCA_DEC LightSaber, PUBLIC_KEY_BYTES LightSaber, SECRET_KEY_BYTES LightSaber) = (736, 672, 1568)%nat /\
  (BYTES_CCA_DEC Saber, PUBLIC_KEY_BYTES Saber, SECRET_KEY_BYTES Saber) = (1088, 992, 2304)%nat /\
  (BYTES_CCA_DEC FireSaber, PUBLIC_KEY_BYTES FireSaber, SECRET_KEY_BYTES FireSaber) = (1472, 1312, 3040)%nat.
Proof. repeat split. Qed.
Theorem api_sizes : forall h I, param_set I ->
  (forall pk, api_pk h I pk ->
     List.length (pk_to_bytes pk) = PUBLIC_KEY_BYTES I /\ is_bytes (pk_to_bytes pk)) /\
  (forall sk, api_sk h I sk ->
     List.length (sk_to_bytes sk) = SECRET_KEY_BYTES I /\ is_bytes (sk_to_bytes sk)) /\
  (forall pk r, let '(ss, ct, _) := encapsulate h I r pk in
     List.length ct = BYTES_CCA_DEC I /\ is_bytes ct /\ List.length ss = 32%nat /\ is_bytes ss) /\
  (forall pk r, let '(ss, ct, _) := encapsulate_ind_cpa h I r pk in
     List.length ct = BYTES_CCA_DEC I /\ is_bytes ct /\ List.length ss = 32%nat /\ is_bytes ss) /\
  (forall sk ct, List.length (decapsulate h I ct sk) = 32%nat /\ is_bytes (decapsulate h I ct sk)) /\
  (forall sk ct, is_bytes ct ->
     List.length (decapsulate_ind_cpa I ct sk) = 32%nat /\ is_bytes (decapsulate_ind_cpa I ct sk)).
Proof.
  intros h I HI. split; [|split; [|split; [|split; [|split]]]].
  - intros pk H. pose proof (api_pk_wf h I pk HI H) as W.
    split; [apply pk_to_bytes_length; assumption|apply (pk_to_bytes_bytes I); exact W].
  - intros sk H. pose proof (api_sk_wf h I sk HI H) as W. split; [apply sk_to_bytes_length; assumption|].
    destruct W as [W1 [W2 [W3 [W4 [W5 W6]]]]]. unfold sk_to_bytes.
    apply is_bytes_app; split; [apply read_mod_q_bytes|].
    apply is_bytes_app; split; [apply (pk_to_bytes_bytes I); exact W5|].
    apply is_bytes_app; split; assumption.
  - intros pk r. unfold encapsulate, encaps_m. cbn [draw fst snd].
    repeat split; try apply enc_length; try apply sha3_256_length; exact HI.
  - intros pk r. unfold encapsulate_ind_cpa. cbn [draw fst snd].
    split; [|split; [|split]]; try apply enc_length; auto; try apply (draw_length 32 r); apply (draw_bytes 32 r).
  - intros. split; apply sha3_256_length.
  - intros sk ct B. apply (dec_length I sk ct HI B).
Qed.
