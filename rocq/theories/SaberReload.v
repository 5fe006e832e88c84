(** * SaberReload: C01-C03 for every value of the key types.

    [PropsSaber] states C01-C03 for the keys that the API can produce.  Here the same is proved
    for every value that the Rust types can hold: any 16-bit coefficients (not only reduced
    ones), any 32-byte strings.  The key types are those of saber-rust/src/non_generic.rs (6-8, 70-75,
    140-145, 189-191) and the
    vectors those of lines 237-239. *)
From Coq Require Import ZArith List Lia Bool Arith String.
From Verif Require Import Base SaberPoly SaberCodec2 SaberCodec3 Ring SaberRing SaberKem
  SaberVec SaberNoise SaberSpec SaberDec SaberDec2 SaberFacts SaberCbd SaberWitness PropsSaber.
Import ListNotations.
Open Scope Z_scope.
Local Opaque gen_matrix gen_secret noise pmul padd pzero star E sha3_256 sha3_512.

(** ** The values of the types *)
(** [PolyVec<K>]: K arrays of 256 u16. *)
Definition holds_vec (K : nat) (v : list (list Z)) : Prop :=
  List.length v = K /\ forall p, In p v -> List.length p = 256%nat /\ forall x, In x p -> 0 <= x < 65536.
Definition holds_bytes (n : nat) (b : bytes) : Prop := List.length b = n /\ forall x, In x b -> 0 <= x < 256.
Definition any_pk (I : saber_impl) (pk : pk_cpa) : Prop := holds_vec (sK I) (pk_vec pk) /\ holds_bytes 32 (pk_seed pk).
Definition any_sk (I : saber_impl) (sk : secret_key) : Prop :=
  holds_bytes 32 (sk_z sk) /\ holds_bytes 32 (sk_hash_pk sk) /\ any_pk I (sk_pk_cca sk) /\ holds_vec (sK I) (sk_vec (sk_sk_cpa sk)).

Lemma holds_vec_wf : forall K v, holds_vec K v -> wf_vec K v.
Proof.
  intros K v [L H]. split; [exact L|]. apply Forall_forall. intros p Hp. destruct (H p Hp) as [Lp Hx].
  split; [exact Lp|]. apply Forall_forall. exact Hx.
Qed.
Lemma holds_bytes_is : forall n b, holds_bytes n b -> List.length b = n /\ is_bytes b.
Proof. intros n b [L H]. split; [exact L|]. apply Forall_forall. exact H. Qed.
Lemma any_pk_wf : forall I pk, any_pk I pk -> wf_pk I pk.
Proof. intros I pk [V S]. apply holds_bytes_is in S. split; [apply holds_vec_wf; exact V|exact S]. Qed.
Lemma any_sk_wf' : forall I sk, any_sk I sk -> wf_sk I sk.
Proof.
  intros I sk (Z' & H & P & V). apply holds_bytes_is in Z'. apply holds_bytes_is in H. destruct Z', H.
  split; [assumption|]. split; [assumption|]. split; [assumption|]. split; [assumption|]. split; [apply any_pk_wf; exact P|apply holds_vec_wf; exact V].
Qed.

(** ** C01 *)
Theorem pk_reload_any : forall I pk, param_set I -> any_pk I pk ->
  exists pk', pk_from_bytes I (pk_to_bytes pk) = Ret (Ok pk') /\ pk_to_bytes pk' = pk_to_bytes pk.
Proof.
  intros I pk HI H. pose proof (any_pk_wf I pk H) as W. eexists. split; [apply pk_from_to; assumption|].
  eapply pk_to_bytes_mod; eassumption.
Qed.
(** What survives: each coefficient modulo 1024, and the seed.  Two keys have the same bytes
    exactly when they agree in that. *)
Theorem pk_reload_value : forall I pk, param_set I -> any_pk I pk ->
  pk_from_bytes I (pk_to_bytes pk) = Ret (Ok {| pk_vec := map (map (fun x => x mod 1024)) (pk_vec pk); pk_seed := pk_seed pk |}).
Proof. intros I pk HI H. rewrite pk_from_to by (auto using any_pk_wf). reflexivity. Qed.
Theorem pk_same_bytes_iff : forall I p q, param_set I -> any_pk I p -> any_pk I q ->
  (pk_to_bytes p = pk_to_bytes q <->
   pk_seed p = pk_seed q /\ map (map (fun x => x mod 1024)) (pk_vec p) = map (map (fun x => x mod 1024)) (pk_vec q)).
Proof.
  intros I p q HI Hp Hq. split.
  - intro E. pose proof (pk_reload_value I p HI Hp) as A. rewrite E, (pk_reload_value I q HI Hq) in A.
    injection A as A1 A2. auto.
  - intros [E1 E2]. rewrite <- (pk_to_bytes_mod I p) by (apply any_pk_wf; exact Hp). rewrite <- (pk_to_bytes_mod I q) by (apply any_pk_wf; exact Hq).
    unfold pk_to_bytes. cbn [pk_vec pk_seed]. unfold vmap_mod in *. rewrite E1, E2. reflexivity.
Qed.

(** ** C02 *)
Theorem encaps_reloaded_any : forall h I pk pk' r, param_set I -> any_pk I pk ->
  pk_from_bytes I (pk_to_bytes pk) = Ret (Ok pk') ->
  encapsulate h I r pk' = encapsulate h I r pk /\ encapsulate_ind_cpa h I r pk' = encapsulate_ind_cpa h I r pk.
Proof.
  intros h I pk pk' r HI HA H. pose proof (any_pk_wf I pk HA) as W. rewrite pk_from_to in H by assumption.
  inversion H; subst. unfold encapsulate, encapsulate_ind_cpa. cbn [draw fst snd].
  rewrite encaps_m_mod by assumption. rewrite enc_pk_mod by assumption. split; reflexivity.
Qed.

(** ** C03 *)
Theorem sk_reload_any : forall h I sk, param_set I -> any_sk I sk ->
  exists sk', sk_from_bytes I (sk_to_bytes sk) = Ret (Ok sk') /\ sk_to_bytes sk' = sk_to_bytes sk /\
    (forall ct, List.length ct = BYTES_CCA_DEC I -> is_bytes ct -> decapsulate h I ct sk' = decapsulate h I ct sk) /\
    pk_to_bytes (public_key sk') = pk_to_bytes (public_key sk) /\
    (forall r, encapsulate h I r (public_key sk') = encapsulate h I r (public_key sk)).
Proof.
  intros h I sk HI HA. pose proof (any_sk_wf' I sk HA) as W. eexists. split; [apply sk_from_to; assumption|].
  destruct W as [W1 [W2 [W3 [W4 [W5 W6]]]]].
  split; [|split; [|split]].
  - unfold sk_to_bytes, indcpa_sk_to_bytes. cbn [sk_z sk_hash_pk sk_pk_cca sk_sk_cpa sk_vec].
    rewrite (read_mod_q_mod (sK I)) by exact W6. rewrite (pk_to_bytes_mod I) by exact W5. reflexivity.
  - intros ct L B. apply decaps_mod; try assumption. repeat split; auto; apply W5 || apply W6.
  - cbn [public_key sk_pk_cca]. apply (pk_to_bytes_mod I). exact W5.
  - intro r. cbn [public_key sk_pk_cca]. unfold encapsulate. cbn [draw fst snd].
    rewrite encaps_m_mod by assumption. reflexivity.
Qed.
Theorem sk_cpa_reload_any : forall I sk, param_set I -> holds_vec (sK I) (sk_vec sk) ->
  exists sk', indcpa_sk_from_bytes I (indcpa_sk_to_bytes sk) = Ok sk' /\ indcpa_sk_to_bytes sk' = indcpa_sk_to_bytes sk /\
    (forall ct, List.length ct = BYTES_CCA_DEC I -> is_bytes ct -> decapsulate_ind_cpa I ct sk' = decapsulate_ind_cpa I ct sk).
Proof.
  intros I sk HI HA. pose proof (holds_vec_wf _ _ HA) as W.
  exists {| sk_vec := vmap_mod 8192 (sk_vec sk) |}. split; [|split].
  - unfold indcpa_sk_from_bytes, indcpa_sk_to_bytes.
    rewrite (read_mod_q_length (sK I)) by exact W. rewrite sk_size by exact HI. rewrite Nat.eqb_refl.
    rewrite mod_q_roundtrip by exact W. reflexivity.
  - unfold indcpa_sk_to_bytes. cbn [sk_vec]. apply (read_mod_q_mod (sK I)). exact W.
  - intros ct L B. apply dec_sk_mod; assumption.
Qed.

(** A key with unreduced coefficients that the API never produces meets the hypotheses. *)
Example any_pk_meets : let pk := {| pk_vec := repeat (repeat 65535 256) 2; pk_seed := repeat 7 32 |} in
  any_pk LightSaber pk /\ exists pk', pk_from_bytes LightSaber (pk_to_bytes pk) = Ret (Ok pk') /\ pk' <> pk.
Proof.
  set (pk := {| pk_vec := repeat (repeat 65535 256) 2; pk_seed := repeat 7 32 |}). cbv zeta.
  assert (A : any_pk LightSaber pk).
  { split; split; try reflexivity.
    - intros p Hp. apply repeat_spec in Hp. subst p. split; [apply repeat_length|]. intros x Hx. apply repeat_spec in Hx. subst x. lia.
    - intros x Hx. apply repeat_spec in Hx. subst x. lia. }
  split; [exact A|]. eexists. split; [apply pk_reload_value; [constructor|exact A]|].
  intro E. apply (f_equal (fun p => nth 0 (nth 0 (pk_vec p) []) 0)) in E. cbv in E. discriminate E.
Qed.
