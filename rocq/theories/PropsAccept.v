(** * PropsAccept: exactly which messages [run] accepts, in every reachable state (C65).

    Together with PropsPanic this settles the three possible outcomes of a call: it panics on
    the messages of PropsPanic, answers Ok on the messages specified here, and answers Err on
    all others.  The conditions are those of the authentication theorems (PropsSigDh to
    PropsSigma, PropsPake), which only say that an accepted message satisfies them: here no
    message that satisfies them is refused. *)
From Coq Require Import ZArith List Lia Bool String.
From Verif Require Import Base SaberPoly SaberCodec SaberCodec3 SaberNoise SaberKem SaberVec SaberFacts Crypto Symmetric Driver Pakes PropsSym PropsPake
  Ibkes IbkeSpec PropsSigDh PropsHmqv PropsFg PropsSigma IbkeToy PropsSaber PropsPanic.
Import ListNotations.
Open Scope Z_scope.

Local Opaque INDCPA_PUBLICKEYBYTES BYTES_CCA_DEC POLYVECCOMPRESSEDBYTES SEEDBYTES
  keygen_ind_cpa encapsulate_ind_cpa decapsulate_ind_cpa wide_block_encrypt wide_block_decrypt indcpa_pk_from_bytes pk_to_bytes.

(** The call returned, with Ok. *)
Definition ok_ibke {I : ibke} (x : outcome (IST I * res (option bytes) (IERR I) * rng)) : Prop :=
  exists s o r, x = Ret (s, Ok o, r).
Definition ok_pake {K : pake} (x : outcome (PST K * res (option bytes) unit)) : Prop :=
  exists s o, x = Ret (s, Ok o).

Lemma assert_nil_ok : forall A (m : bytes) (k : outcome A) (Q : outcome A -> Prop), Q k -> ~ Q Panic ->
  (Q (assert_ (List.length m =? 0)%nat k) <-> m = []).
Proof.
  intros A m k Q K NP. destruct m as [|x m]; cbn [List.length Nat.eqb assert_]; split; intro H; auto; [contradiction|discriminate].
Qed.
Lemma panic_not_ok : forall I, ~ @ok_ibke I Panic.
Proof. intros I [s [o [r H]]]. discriminate H. Qed.
Lemma err_not_ok : forall (I : ibke) s e r, ~ @ok_ibke I (Ret (s, Err e, r)).
Proof. intros I s e r [s' [o [r' H]]]. discriminate H. Qed.
Lemma ret_ok : forall (I : ibke) s o r, @ok_ibke I (Ret (s, Ok o, r)).
Proof. intros I s o r. exists s, o, r. reflexivity. Qed.
Lemma panic_not_okp : forall K, ~ @ok_pake K Panic.
Proof. intros I [s [o H]]. discriminate H. Qed.
Lemma err_not_okp : forall (K : pake) s e, ~ @ok_pake K (Ret (s, Err e)).
Proof. intros I s e [s' [o H]]. discriminate H. Qed.
Lemma ret_okp : forall (K : pake) s o, @ok_pake K (Ret (s, Ok o)).
Proof. intros I s o. exists s, o. reflexivity. Qed.

(* ------------------------------------------------------------------ *)
(** ** ID-SIG-DH *)
(** The message authenticates some id to the session, and its signature key (bytes 128 to 159)
    is one the Ed25519 crate accepts. *)
Definition sig_dh_good (P : prims) (mpk ssid : bytes) (step : nat) (m : bytes) : Prop :=
  match step with
  | 0%nat => m = []
  | 1%nat => p_pk_valid P Ed25519 (slice 128 32 m) = true /\ exists id, sd_authentic P mpk ssid 0 m id
  | 2%nat => p_pk_valid P Ed25519 (slice 128 32 m) = true /\ exists id, sd_authentic P mpk ssid 1 m id
  | _ => False
  end.
Lemma sd_auth_iff : forall P mpk ssid tag m,
  p_pk_valid P Ed25519 (slice 128 32 m) = true /\ (exists id, sd_authentic P mpk ssid tag m id) <->
  exists eph sg c, sd_parse P m = Ret (eph, sg, c) /\ sd_cert_valid P mpk c = true /\
    verify P Ed25519 (fst (sdc_upk c)) ([tag] ++ ssid ++ eph) sg = true.
Proof.
  intros P mpk ssid tag m. split.
  - intros [V [id [eph [sg [pk [dh [cs [-> [L1 [L2 [L3 [L4 [L5 [L6 [V1 V2]]]]]]]]]]]]]]].
    assert (SL : slice 128 32 (eph ++ sg ++ id ++ pk ++ dh ++ cs) = pk).
    { rewrite <- (slice_mid 128 32 (eph ++ sg ++ id) pk (dh ++ cs)) at 2 by (rewrite ?app_length; lia).
      rewrite <- !app_assoc. reflexivity. }
    rewrite SL in V. exists eph, sg, (SdCert id (pk, dh) cs). split.
    + apply (sd_parse_ok P eph sg (SdCert id (pk, dh) cs) L1 L2). unfold sd_cert_wf. cbn [sdc_id sdc_upk sdc_sig fst snd]. auto.
    + unfold sd_cert_valid. cbn [sdc_id sdc_upk sdc_sig fst snd]. auto.
  - intros [eph [sg [c [PA [V1 V2]]]]]. split.
    + destruct (p_pk_valid P Ed25519 (slice 128 32 m)) eqn:V; [reflexivity|]. exfalso.
      assert (X : sd_parse P m = Panic) by (apply sd_parse_panic; auto). congruence.
    + exists (sdc_id c). eapply sd_auth_of; eassumption.
Qed.
Theorem sig_dh_run_ok_iff : forall P r ssid mpk cert usk rl l s r' os m,
  hist (ibke_machine (IdSigDh P)) (fst (ik_new (IdSigDh P) r ssid mpk cert usk rl)) l s ->
  (ok_ibke (ik_run (IdSigDh P) s r' os m) <-> sig_dh_good P mpk ssid (next_step rl l) m).
Proof.
  intros P r ssid mpk cert usk rl l s r' os m H.
  pose proof (sig_dh_run_panics_iff P r ssid mpk cert usk rl l s r' os m H) as PI.
  assert (ST : sd_step s = next_step rl l).
  { apply (step_of_log (ibke_machine (IdSigDh P)) sd_step rl _ (sig_dh_steps P r ssid mpk cert usk rl)); [reflexivity|exact H]. }
  apply sd_inv_hist in H. destruct H as [[F1 [F2 _]] _].
  cbn [IdSigDh ik_run] in *. unfold sd_run in *. rewrite <- ST in *. rewrite F1, F2 in *. clear ST.
  destruct (sd_step s) as [|[|[|n]]]; cbn [sig_dh_good sig_dh_bad] in *.
  - apply assert_nil_ok; [|apply panic_not_ok]. destruct (draw 32 os). apply ret_ok.
  - rewrite sd_auth_iff. destruct (sd_parse P m) as [[[eph sg] c]|]; cbn [obind] in *.
    2:{ split; [intro Q; destruct (panic_not_ok _ Q)|intros [e [g [c [Q _]]]]; discriminate Q]. }
    destruct (sd_cert_valid P mpk c) eqn:V1; cbn [negb].
    2:{ split; [intro Q; destruct (err_not_ok _ _ _ _ Q)|intros [e [g [c' [Q [V _]]]]]; injection Q as <- <- <-; congruence]. }
    match goal with |- context [if negb ?b then _ else _] => destruct b eqn:V2 end; cbn [negb].
    2:{ split; [intro Q; destruct (err_not_ok _ _ _ _ Q)|intros [e [g [c' [Q [_ V]]]]]; injection Q as <- <- <-; congruence]. }
    destruct (draw 32 os). split; [|intros _; apply ret_ok]. intros _. exists eph, sg, c. auto.
  - rewrite sd_auth_iff. destruct (sd_parse P m) as [[[eph sg] c]|] eqn:PA; cbn [obind] in *.
    2:{ split; [intro Q; destruct (panic_not_ok _ Q)|intros [e [g [c [Q _]]]]; discriminate Q]. }
    destruct (sd_cert_valid P mpk c) eqn:V1; cbn [negb] in *.
    2:{ split; [intro Q; destruct (err_not_ok _ _ _ _ Q)|intros [e [g [c' [Q [V _]]]]]; injection Q as <- <- <-; congruence]. }
    match goal with |- context [if negb ?b then _ else _] => destruct b eqn:V2 end; cbn [negb] in *.
    2:{ split; [intro Q; destruct (err_not_ok _ _ _ _ Q)|intros [e [g [c' [Q [_ V]]]]]; injection Q as <- <- <-; congruence]. }
    assert (NB : ~ (List.length m <> 256%nat \/ p_pk_valid P Ed25519 (slice 128 32 m) = false)).
    { rewrite <- sd_parse_panic, PA. discriminate. }
    destruct (sd_eph_sk s); cbn [unwrap obind] in *; [|destruct (NB (proj1 PI eq_refl))].
    destruct (sd_eph_pk s); cbn [unwrap obind] in *; [|destruct (NB (proj1 PI eq_refl))].
    split; [|intros _; apply ret_ok]. intros _. exists eph, sg, c. auto.
  - split; [intro Q; destruct (panic_not_ok _ Q)|tauto].
Qed.

(* ------------------------------------------------------------------ *)
(** ** ID-HMQV-C *)
(** Step 1 needs a point and a certificate valid under the main key; step 2 the message that
    confirms to the ephemeral secret [x] whose public key this session sent; step 3 exactly the
    MAC of the shared point of the accepted first message and the ephemeral key sent with it. *)
Theorem hmqv_run_ok_iff : forall P G, group_laws G -> forall r ssid mpk cert usk rl l s,
  let I := IdHmqvC P G in
  hist (ibke_machine I) (fst (ik_new I r ssid mpk cert usk rl)) l s ->
  match next_step rl l with
  | 0%nat => forall r' os m, ok_ibke (ik_run I s r' os m) <-> m = []
  | 1%nat => forall r' os m, ok_ibke (ik_run I s r' os m) <->
      exists eph certb id upk, m = compress G eph ++ certb /\ hm_certified P G mpk certb id upk
  | 2%nat => exists x m0, In (m0, Ok (Some (compress G (g_base G x) ++ hm_cert_to_bytes G cert))) l /\
      forall r' os m, ok_ibke (ik_run I s r' os m) <-> exists id k, hm_confirms_I P G mpk ssid (hmc_id cert) usk x m id k
  | 3%nat => exists y m1 mac1 id k m', In (m1, Ok (Some (compress G (g_base G y) ++ mac1 ++ hm_cert_to_bytes G cert))) l /\
      hm_confirms_R P G mpk ssid (hmc_id cert) usk y m1 m' id k /\
      forall r' os m, ok_ibke (ik_run I s r' os m) <-> m = m'
  | _ => forall r' os m, ik_run I s r' os m = Panic
  end.
Proof.
  intros P G GL r ssid mpk cert usk rl l s I H.
  assert (ST : hm_step s = next_step rl l).
  { apply (step_of_log (ibke_machine (IdHmqvC P G)) hm_step rl _ (hmqv_steps P G GL r ssid mpk cert usk rl)); [reflexivity|exact H]. }
  apply (hm_inv_hist P G GL) in H. destruct H as [[F1 [F2 [F3 F4]]] IV]. unfold I. clear I.
  assert (CP : forall certb id upk, hm_certified P G mpk certb id upk -> exists cs, hm_cert_from_bytes G certb = Ret (HmCert id upk cs) /\ hm_cert_valid P G mpk (HmCert id upk cs) = true).
  { intros certb id upk [cs [-> [L1 [L2 V]]]]. exists cs. split; [|exact V].
    apply (hm_cert_roundtrip G GL (HmCert id upk cs)). split; assumption. }
  cbn [IdHmqvC ik_run]. unfold hm_run. rewrite <- ST. rewrite F1, F2, F3, F4.
  destruct (hm_step s) as [|[|[|[|n]]]] eqn:SE; clear ST.
  - intros r' os m. apply assert_nil_ok; [|apply panic_not_ok]. unfold hm_gen_user. destruct (s_random G r') as [x rx]. apply ret_ok.
  - intros r' os m. split.
    + intros [s' [o [r1 E]]]. obi E. destruct (hm_cert_valid P G mpk _) eqn:V in E; cbn [negb] in E; [|discriminate E].
      match goal with X : split_at _ m = Ret _ |- _ => apply split_at_inv in X; destruct X as [-> LE] end.
      match goal with X : decompress _ ?b = Ret _ |- _ => apply (decompress_inv G _ _ GL) in X; subst b end.
      do 4 eexists. split; [reflexivity|]. eapply hm_certified_of; eassumption.
    + intros [eph [certb [id [upk [-> C]]]]]. destruct (CP _ _ _ C) as [cs [CB V]].
      rewrite split_at_app by (apply compress_length). cbn [obind]. rewrite decompress_compress by exact GL. cbn [obind].
      rewrite CB. cbn [obind]. rewrite V. cbn [negb]. unfold hm_gen_user. destruct (s_random G r') as [x rx]. rewrite hm_derive_ok. cbn [obind]. apply ret_ok.
  - assert (exists x m0, In (m0, Ok (Some (compress G (g_base G x) ++ hm_cert_to_bytes G cert))) l /\ hm_eph_sk s = Some x /\ hm_eph_pk s = Some (g_base G x)) as [x [m0 [IN [SK PK]]]].
    { destruct rl.
      - destruct IV as [[Q' _]|[x [m0 [IN [[_ [_ [A B]]]|[Q' _]]]]]]; try congruence. exists x, m0. auto.
      - destruct IV as [[Q' _]|[y [m1 [mac1 [id [k [m' [_ [_ [_ [_ [[Q' _]|[Q' _]]]]]]]]]]]]]; congruence. }
    exists x, m0. split; [exact IN|]. intros r' os m. rewrite SK, PK. cbn [unwrap obind]. split.
    + intros [s' [o [r1 E]]]. obi E. destruct (hm_cert_valid P G mpk _) eqn:V in E; cbn [negb] in E; [|discriminate E].
      rewrite hm_derive_ok in E. cbn [obind] in E.
      match type of E with (if negb (beq ?u ?v) then _ else _) = _ => destruct (beq u v) eqn:Q end; cbn [negb] in E; [|discriminate E].
      apply beq_spec in Q. subst.
      repeat match goal with X : split_at _ _ = Ret _ |- _ => apply split_at_inv in X; destruct X as [-> ?] end.
      match goal with X : decompress _ ?b = Ret _ |- _ => apply (decompress_inv G _ _ GL) in X; subst b end.
      match goal with X : hm_cert_from_bytes _ ?b = Ret ?c |- _ => exists (hmc_id c); eexists; exists a1, (hmc_upk c), b end.
      cbn zeta. split; [reflexivity|]. split; [eapply hm_certified_of; eassumption|reflexivity].
    + intros [id [k [eph [upk [certb HC]]]]]. cbn zeta in HC. destruct HC as [-> [C _]]. destruct (CP _ _ _ C) as [cs [CB V]].
      rewrite split_at_app by (apply compress_length). cbn [obind].
      rewrite split_at_app by (apply expand_length). cbn [obind].
      rewrite decompress_compress by exact GL. cbn [obind]. rewrite CB. cbn [obind]. rewrite V. cbn [negb hmc_id hmc_upk].
      rewrite hm_derive_ok. cbn [obind]. unfold hm_sigma.
      match goal with |- context [beq ?u ?v] => replace (beq u v) with true by (symmetry; apply beq_spec; reflexivity) end.
      cbn [negb]. apply ret_ok.
  - assert (exists y m1 mac1 id k m', In (m1, Ok (Some (compress G (g_base G y) ++ mac1 ++ hm_cert_to_bytes G cert))) l /\
      hm_confirms_R P G mpk ssid (hmc_id cert) usk y m1 m' id k /\ hm_macs s = Some (m', mac1)) as [y [m1 [mac1 [id [k [m' [IN [C M]]]]]]]].
    { destruct rl.
      - destruct IV as [[Q' _]|[x [m0 [_ [[Q' _]|[Q' _]]]]]]; congruence.
      - destruct IV as [[Q' _]|[y [m1 [mac1 [id [k [m' [IN [C [_ [_ [[_ [_ A]]|[Q' _]]]]]]]]]]]]]; try congruence. exists y, m1, mac1, id, k, m'. auto. }
    exists y, m1, mac1, id, k, m'. split; [exact IN|]. split; [exact C|]. intros r' os m. rewrite M. cbn [unwrap obind].
    destruct (beq m m') eqn:Q; cbn [negb].
    + apply beq_spec in Q. split; [auto|]. intros _. apply ret_ok.
    + split; [intro X; destruct (err_not_ok _ _ _ _ X)|]. intros ->. rewrite beq_refl in Q. discriminate Q.
  - reflexivity.
Qed.

(* ------------------------------------------------------------------ *)
(** ** FG-IBKE-C *)
Theorem fg_run_ok_iff : forall P G, group_laws G -> forall rm mpk msk rm' r ssid cert usk rl l s,
  let I := FgIbkeC P G in
  gen_main I rm = (mpk, msk, rm') ->
  hist (ibke_machine I) (fst (ik_new I r ssid mpk cert usk rl)) l s ->
  match next_step rl l with
  | 0%nat => forall r' os m, ok_ibke (ik_run I s r' os m) <-> m = []
  | 1%nat => forall r' os m, ok_ibke (ik_run I s r' os m) <->
      exists id X eph, m = id ++ compress G X ++ compress G eph /\ List.length id = 32%nat
  | 2%nat => exists x m0, In (m0, Ok (Some (fg_hello G cert x))) l /\
      forall r' os m, ok_ibke (ik_run I s r' os m) <-> exists id k, fg_confirms_I P G mpk x (fgc_xhat cert) m id k
  | 3%nat => exists y m1 mac1 id k m', In (m1, Ok (Some (fg_hello G cert y ++ mac1))) l /\
      fg_confirms_R P G mpk y (fgc_xhat cert) m1 m' id k /\
      forall r' os m, ok_ibke (ik_run I s r' os m) <-> m = m'
  | _ => forall r' os m, ik_run I s r' os m = Panic
  end.
Proof.
  intros P G GL rm mpk msk rm' r ssid cert usk rl l s I GM H.
  assert (MP : exists p, mpk = compress G p).
  { unfold I in GM. cbn [FgIbkeC gen_main] in GM. unfold fg_gen_main in GM. destruct (s_random G rm) as [x rx]. injection GM as <- _ _. eauto. }
  destruct MP as [mp MP].
  assert (ST : fg_step s = next_step rl l).
  { apply (step_of_log (ibke_machine (FgIbkeC P G)) fg_step rl _ (fg_steps P G GL r ssid mpk cert usk rl)); [reflexivity|exact H]. }
  apply (fg_inv_hist P G GL) in H. destruct H as [[F1 [F2 F3]] [_ IV]]. unfold I in *. clear I GM.
  cbn [FgIbkeC ik_run]. unfold fg_run. rewrite <- ST. rewrite F2, F3.
  destruct (fg_step s) as [|[|[|[|n]]]] eqn:SE; clear ST.
  - intros r' os m. apply assert_nil_ok; [|apply panic_not_ok]. destruct (s_random G r') as [x rx]. apply ret_ok.
  - intros r' os m. split.
    + intros [s' [o [r1 E]]]. obi E.
      repeat match goal with X : split_at _ _ = Ret _ |- _ => apply split_at_inv in X; destruct X as [-> ?] end.
      repeat match goal with X : decompress _ ?b = Ret _ |- _ => apply (decompress_inv G _ _ GL) in X; subst b end.
      do 3 eexists. split; [reflexivity|assumption].
    + intros [id [X [eph [-> L]]]].
      rewrite split_at_app by exact L. cbn [obind]. rewrite split_at_app by (apply compress_length). cbn [obind].
      rewrite !decompress_compress by exact GL. cbn [obind]. destruct (s_random G r') as [x rx].
      rewrite MP, decompress_compress by exact GL. cbn [obind]. rewrite fg_derive_ok. cbn [obind]. apply ret_ok.
  - assert (exists x m0, In (m0, Ok (Some (fg_hello G cert x))) l /\ fg_eph_sk s = Some x) as [x [m0 [IN SK]]].
    { destruct rl.
      - destruct IV as [[Q' _]|[x [m0 [IN [[_ [_ A]]|[Q' _]]]]]]; try congruence. exists x, m0. auto.
      - destruct IV as [[Q' _]|[y [m1 [mac1 [id [k [m' [_ [_ [_ [_ [[Q' _]|[Q' _]]]]]]]]]]]]]; congruence. }
    exists x, m0. split; [exact IN|]. intros r' os m. rewrite SK. cbn [unwrap obind]. rewrite MP, decompress_compress by exact GL. cbn [obind]. split.
    + intros [s' [o [r1 E]]]. obi E.
      match goal with X : fg_derive _ _ _ _ = Ret _ |- _ => rewrite fg_derive_ok in X; injection X as <- <- <- end.
      match type of E with (if negb (beq ?u ?v) then _ else _) = _ => destruct (beq u v) eqn:Q end; cbn [negb] in E; [|discriminate E].
      apply beq_spec in Q. subst.
      repeat match goal with X : split_at _ _ = Ret _ |- _ => apply split_at_inv in X; destruct X as [-> ?] end.
      repeat match goal with X : decompress _ ?b = Ret _ |- _ => apply (decompress_inv G _ _ GL) in X; subst b end.
      do 4 eexists. exists mp. cbn zeta. refine (conj _ (conj _ (conj eq_refl eq_refl))); [reflexivity|assumption].
    + intros [id [k [eph [X [mp' HC]]]]]. cbn zeta in HC. destruct HC as [MQ [L [-> _]]].
      assert (mp' = mp). { pose proof (decompress_compress G mp GL) as A. rewrite MQ, decompress_compress in A by exact GL. congruence. }
      subst mp'.
      rewrite split_at_app by exact L. cbn [obind]. rewrite split_at_app by (apply compress_length). cbn [obind].
      rewrite split_at_app by (apply compress_length). cbn [obind].
      rewrite !decompress_compress by exact GL. cbn [obind]. rewrite fg_derive_ok. cbn [obind].
      match goal with |- context [beq ?u ?v] => replace (beq u v) with true by (symmetry; apply beq_spec; reflexivity) end.
      cbn [negb]. apply ret_ok.
  - assert (exists y m1 mac1 id k m', In (m1, Ok (Some (fg_hello G cert y ++ mac1))) l /\
      fg_confirms_R P G mpk y (fgc_xhat cert) m1 m' id k /\ fg_macs s = Some (m', mac1)) as [y [m1 [mac1 [id [k [m' [IN [C M]]]]]]]].
    { destruct rl.
      - destruct IV as [[Q' _]|[x [m0 [_ [[Q' _]|[Q' _]]]]]]; congruence.
      - destruct IV as [[Q' _]|[y [m1 [mac1 [id [k [m' [IN [C [_ [_ [[_ [_ A]]|[Q' _]]]]]]]]]]]]]; try congruence. exists y, m1, mac1, id, k, m'. auto. }
    exists y, m1, mac1, id, k, m'. split; [exact IN|]. split; [exact C|]. intros r' os m. rewrite M. cbn [unwrap obind].
    destruct (beq m' m) eqn:Q; cbn [negb].
    + apply beq_spec in Q. split; [auto|]. intros _. apply ret_ok.
    + split; [intro X; destruct (err_not_ok _ _ _ _ X)|]. intros ->. rewrite beq_refl in Q. discriminate Q.
  - reflexivity.
Qed.

(* ------------------------------------------------------------------ *)
(** ** ID-SIGMA-R *)
(** With Ed25519, the certified key in the plaintext (the 32 bytes before the last 64) is one
    the crate accepts; every Dilithium2 key of the right length is. *)
Definition sigma_key_ok (P : prims) (ty : scheme) (ek m : bytes) : Prop :=
  ty = Ed25519 -> forall pt, auth_decrypt P ek m = Ret (Ok pt) -> p_pk_valid P Ed25519 (slice (List.length pt - 96) 32 pt) = true.
Lemma sm_open_ok : forall (I : ibke) P ty ek m (k : (tagged * bytes * bytes * res sm_cert sm_error) -> outcome (IST I * res (option bytes) (IERR I) * rng)) s e r,
  ok_ibke (let! d := auth_decrypt P ek m in
    match d with Err _ => Ret (s, Err e, r) | Ok pt => let! x := sm_parse P ty pt in k x end) <->
  exists pt sg mac certb id upk csig, auth_decrypt P ek m = Ret (Ok pt) /\
    sm_parse P ty pt = Ret ((ty, sg), mac, certb, Ok (SmCert id (ty, upk) (ty, csig))) /\
    ok_ibke (k ((ty, sg), mac, certb, Ok (SmCert id (ty, upk) (ty, csig)))).
Proof.
  intros I P ty ek m k s e r. destruct (auth_decrypt P ek m) as [[pt|u]|]; cbn [obind].
  - destruct (sm_parse_panic P ty pt) as [[-> B]|[NB [sg [mac [certb [id [upk [csig PA]]]]]]]]; cbn [obind].
    + split; [intro Q; destruct (panic_not_ok _ Q)|].
      intros [pt' [sg [mac [certb [id [upk [csig [Q1 [Q2 Q3]]]]]]]]]. exfalso. injection Q1 as <-.
      destruct (sm_parse_panic P ty pt) as [[QP _]|[NB _]]; [congruence|contradiction].
    + rewrite PA. cbn [obind]. split.
      * intro Q. exists pt, sg, mac, certb, id, upk, csig. auto.
      * intros [pt' [sg' [mac' [certb' [id' [upk' [csig' [Q1 [Q2 Q3]]]]]]]]]. injection Q1 as <-. rewrite PA in Q2. injection Q2 as <- <- <- <- <- <-. exact Q3.
  - split; [intro Q; destruct (err_not_ok _ _ _ _ Q)|]. intros [pt' [sg [mac [certb [id [upk [csig [Q1 _]]]]]]]]. discriminate Q1.
  - split; [intro Q; destruct (panic_not_ok _ Q)|]. intros [pt' [sg [mac [certb [id [upk [csig [Q1 _]]]]]]]]. discriminate Q1.
Qed.
Lemma sm_auth_iff : forall P ty mp ek mk tr tag m,
  (exists pt sg mac certb id upk csig, auth_decrypt P ek m = Ret (Ok pt) /\
    sm_parse P ty pt = Ret ((ty, sg), mac, certb, Ok (SmCert id (ty, upk) (ty, csig))) /\
    verify P ty mp (id ++ upk) csig = true /\ verify P ty upk (tr ++ certb) sg = true /\
    beq (hmac P mk ([tag] ++ id)) mac = true) <->
  (exists id, sm_authentic P (ty, mp) ek mk tr tag m id) /\ sigma_key_ok P ty ek m.
Proof.
  intros P ty mp ek mk tr tag m. split.
  - intros [pt [sg [mac [certb [id [upk [csig [D [PA [V1 [V2 B]]]]]]]]]]]. split.
    + exists id. apply (sm_auth_of P (ty, mp) ek mk tr tag m pt (ty, sg) mac certb (SmCert id (ty, upk) (ty, csig))); auto;
      unfold sm_cert_valid; cbn [smc_id smc_upk smc_sig snd]; rewrite t_verify_same; congruence.
    + intros -> pt' D'. rewrite D in D'. injection D' as <-.
      destruct (p_pk_valid P Ed25519 (slice (List.length pt - 96) 32 pt)) eqn:V; [reflexivity|]. exfalso.
      destruct (sm_parse_panic P Ed25519 pt) as [[Q _]|[NB _]]; [congruence|]. apply NB. right. exact V.
  - intros [[id [sg [upk [csig A]]]] K]. cbn zeta in A. cbn [fst snd] in A. destruct A as [D [L1 [L2 [L3 [L4 [V1 V2]]]]]].
    assert (W : sm_cert_wf P ty (SmCert id (ty, upk) (ty, csig))).
    { unfold sm_cert_wf. cbn [smc_id smc_upk smc_sig fst snd]. repeat split; auto. intros ->.
      specialize (K eq_refl _ D). unfold slice in K. rewrite !app_length, L1, L2, L3, L4 in K.
      change (sig_len Ed25519) with 64%nat in *. change (pk_len Ed25519) with 32%nat in *.
      pose proof (slice_mid (64 + List.length (hmac P mk ([tag] ++ id)) + 32) 32 (sg ++ hmac P mk ([tag] ++ id) ++ id) upk csig) as SM.
      rewrite !app_length, L4, L1 in SM. specialize (SM ltac:(lia) L2). unfold slice in SM.
      rewrite <- !app_assoc in SM. rewrite <- SM. rewrite <- K. do 3 f_equal; lia. }
    do 3 eexists. exists (id ++ upk ++ csig), id, upk, csig. split; [exact D|].
    split; [apply (sm_parse_ok P ty sg _ (SmCert id (ty, upk) (ty, csig)) L4 W)|]. split; [exact V1|]. split; [exact V2|]. apply beq_refl.
Qed.
Theorem sigma_run_ok_iff : forall P h r ssid mpk cert usk rl l s,
  let I := IdSigmaR (fst mpk) P h in let n := fst (draw 32 r) in
  hist (ibke_machine I) (fst (ik_new I r ssid mpk cert usk rl)) l s ->
  match next_step rl l with
  | 0%nat => forall r' os m, ok_ibke (ik_run I s r' os m) <-> m = []
  | 1%nat => forall r' os m, ok_ibke (ik_run I s r' os m) <-> List.length m = 704%nat
  | 2%nat => forall r' os m, ok_ibke (ik_run I s r' os m) <-> List.length m = 768%nat
  | 3%nat => exists os0 kpk nA pkb ss ct ro, List.length nA = 32%nat /\
      indcpa_pk_from_bytes LightSaber pkb = Ret kpk /\ encapsulate_ind_cpa h LightSaber os0 kpk = (ss, ct, ro) /\
      In (nA ++ pkb, Ok (Some (n ++ ct))) l /\
      forall r' os m, ok_ibke (ik_run I s r' os m) <->
        (exists id, sm_authentic P mpk (sm_ea P ss) (sm_mk P ss) ([0] ++ n ++ ssid ++ pk_to_bytes kpk ++ ct) 0 m id) /\
        sigma_key_ok P (fst mpk) (sm_ea P ss) m
  | 4%nat => exists os0 kpk ksk ro nB ct o, keygen_ind_cpa h LightSaber os0 = (kpk, ksk, ro) /\
      In ([], Ok (Some (n ++ pk_to_bytes kpk))) l /\ List.length nB = 32%nat /\ In (nB ++ ct, Ok o) l /\
      let ss := decapsulate_ind_cpa LightSaber ct ksk in
      forall r' os m, ok_ibke (ik_run I s r' os m) <->
        (exists id, sm_authentic P mpk (sm_eb P ss) (sm_mk P ss) ([1] ++ n ++ ssid ++ ct ++ pk_to_bytes kpk) 1 m id) /\
        sigma_key_ok P (fst mpk) (sm_eb P ss) m
  | _ => forall r' os m, ik_run I s r' os m = Panic
  end.
Proof.
  intros P h r ssid mpk cert usk rl l s I n H.
  destruct (sigma_run_panics_iff P h r ssid mpk cert usk rl l s H) as [ek [_ PI]]. cbv zeta in PI.
  assert (ST : sm_step s = next_step rl l).
  { apply (step_of_log (ibke_machine I) sm_step rl _ (sigma_steps P h r ssid mpk cert usk rl)); [|exact H].
    unfold I. cbn [IdSigmaR ik_new]. unfold sm_new. destruct (draw 32 r). reflexivity. }
  assert (NE : forall r' os m, (next_step rl l < 3)%nat -> forall s' e r1, ik_run I s r' os m <> Ret (s', Err e, r1)).
  { intros r' os m LT s' e r1 E. rewrite <- ST in LT. unfold I in E. cbn [IdSigmaR ik_run] in E. unfold sm_run in E.
    destruct (sm_step s) as [|[|[|k]]]; [| | |lia]; obi E; try discriminate E.
    match type of E with match ?c with _ => _ end = _ => destruct c as [ct|] eqn:EC end; [obi E; discriminate E|].
    match goal with X : ciphertext_from_bytes _ _ = Ret (Err _) |- _ => unfold ciphertext_from_bytes, newtype_from_bytes in X end.
    match goal with X : (_ =? _)%nat = true |- _ => rewrite X in * end.
    match goal with X : (if negb true then _ else _) = _ |- _ => discriminate X end. }
  assert (LOW : (next_step rl l < 3)%nat -> forall r' os m, ok_ibke (ik_run I s r' os m) <-> ~ sigma_bad P (fst mpk) ek (next_step rl l) m).
  { intros LT r' os m. rewrite <- (PI r' os m). fold I. specialize (NE r' os m LT).
    destruct (ik_run I s r' os m) as [[[s' [o|e]] r1]|]; split; intro Q; try discriminate; try (destruct (panic_not_ok _ Q)); try apply ret_ok.
    - destruct (NE _ _ _ eq_refl).
    - destruct (Q eq_refl). }
  apply (sm_inv_hist P h ssid mpk cert usk n rl r l s eq_refl) in H.
  destruct (next_step rl l) as [|[|[|[|[|k]]]]] eqn:NS.
  - intros r' os m. rewrite (LOW ltac:(lia)). cbn [sigma_bad]. destruct m; split; intro Q; try reflexivity; try discriminate; [intro X; contradiction|]. exfalso. apply Q. discriminate.
  - intros r' os m. rewrite (LOW ltac:(lia)). cbn [sigma_bad]. destruct (Nat.eq_dec (List.length m) 704); tauto.
  - intros r' os m. rewrite (LOW ltac:(lia)). cbn [sigma_bad]. destruct (Nat.eq_dec (List.length m) 768); tauto.
  - destruct rl; cbn [sm_inv] in H.
    { exfalso. unfold next_step, first_step in NS. lia. }
    destruct H as [F H]. pose proof F as [F1 [F2 [F3 F4]]].
    destruct H as [[SE _]|[os0 [kpk [nA [pkb [ss [ct [ro [LA [PKB [EN [IN [KW [[SE D]|[SE [D _]]]]]]]]]]]]]]]]; [congruence| |congruence].
    exists os0, kpk, nA, pkb, ss, ct, ro. repeat (split; [assumption|]). intros r' os m.
    pose proof KW as [K1 [K2 [K3 [K4 [K5 K6]]]]].
    unfold I. cbn [IdSigmaR ik_run]. unfold sm_run. rewrite SE, F1, F2, K1, K2, K3, K4, K5. cbn [unwrap obind fst snd].
    destruct mpk as [ty mp]. cbn [fst]. rewrite (sm_open_ok (IdSigmaR ty P h)). rewrite <- sm_auth_iff.
    split; intros [pt [sg [mac [certb [id [upk [csig [D1 [PA Q]]]]]]]]]; exists pt, sg, mac, certb, id, upk, csig; (split; [exact D1|]); (split; [exact PA|]).
    + unfold sm_cert_valid in Q. cbn [smc_id smc_upk smc_sig snd] in Q. rewrite !t_verify_same in Q. cbn [obind] in Q. rewrite sm_trans_a in Q.
      destruct (verify P ty mp (id ++ upk) csig); cbn [negb] in Q; [|destruct (err_not_ok _ _ _ _ Q)].
      destruct (verify P ty upk _ sg); cbn [negb] in Q; [|destruct (err_not_ok _ _ _ _ Q)].
      destruct (beq _ mac); cbn [negb] in Q; [|destruct (err_not_ok _ _ _ _ Q)]. auto.
    + destruct Q as [V1 [V2 B]]. unfold sm_cert_valid. cbn [smc_id smc_upk smc_sig snd]. rewrite !t_verify_same. cbn [obind]. rewrite sm_trans_a.
      rewrite V1. cbn [negb]. rewrite V2. cbn [negb]. rewrite B. cbn [negb].
      match goal with |- context [auth_encrypt P ?a ?b ?c] => destruct (auth_encrypt P a b c) as [enc r1] end. apply ret_ok.
  - destruct rl; cbn [sm_inv] in H.
    2:{ exfalso. unfold next_step, first_step in NS. lia. }
    destruct H as [F H]. pose proof F as [F1 [F2 [F3 F4]]].
    destruct H as [[SE _]|[os0 [kpk [ksk [ro [KG [IN [SK [[SE _]|[nB [ct [o1 [LB [IN1 [KW [[SE D]|[SE [D _]]]]]]]]]]]]]]]]]]; [congruence|congruence| |congruence].
    exists os0, kpk, ksk, ro, nB, ct, o1. repeat (split; [assumption|]). cbv zeta. intros r' os m.
    cbn zeta in KW. pose proof KW as [K1 [K2 [K3 [K4 [K5 K6]]]]].
    unfold I. cbn [IdSigmaR ik_run]. unfold sm_run. rewrite SE, F1, F2, K1, K2, K3, K4, K5. cbn [unwrap obind fst snd].
    destruct mpk as [ty mp]. cbn [fst]. rewrite (sm_open_ok (IdSigmaR ty P h)). rewrite <- sm_auth_iff.
    split; intros [pt [sg [mac [certb [id [upk [csig [D1 [PA Q]]]]]]]]]; exists pt, sg, mac, certb, id, upk, csig; (split; [exact D1|]); (split; [exact PA|]).
    + unfold sm_cert_valid in Q. cbn [smc_id smc_upk smc_sig snd] in Q. rewrite !t_verify_same in Q. cbn [obind] in Q. rewrite sm_trans_b in Q.
      destruct (verify P ty mp (id ++ upk) csig); cbn [negb] in Q; [|destruct (err_not_ok _ _ _ _ Q)].
      destruct (verify P ty upk _ sg); cbn [negb] in Q; [|destruct (err_not_ok _ _ _ _ Q)].
      destruct (beq _ mac); cbn [negb] in Q; [|destruct (err_not_ok _ _ _ _ Q)]. auto.
    + destruct Q as [V1 [V2 B]]. unfold sm_cert_valid. cbn [smc_id smc_upk smc_sig snd]. rewrite !t_verify_same. cbn [obind]. rewrite sm_trans_b.
      rewrite V1. cbn [negb]. rewrite V2. cbn [negb]. rewrite B. cbn [negb]. apply ret_ok.
  - intros r' os m. unfold I. cbn [IdSigmaR ik_run]. unfold sm_run. rewrite ST. reflexivity.
Qed.

(* ------------------------------------------------------------------ *)
(** ** The PAKEs *)
Lemma cake_never_err : forall P h s os m s' e, cake_run P h s os m <> Ret (s', Err e).
Proof.
  intros P h s os m s' e E. unfold cake_run in E. destruct (ck_step s) as [|[|[|k]]]; obi E; discriminate E.
Qed.
(** CAKE never answers Err: it accepts whatever it does not panic on. *)
Theorem cake_run_ok_iff : forall P h r ssid pw rl s0 r' l s os m,
  pk_new (CakePake P h) r ssid pw rl = Ret (s0, r') ->
  hist (pake_machine (CakePake P h)) s0 l s ->
  (ok_pake (pk_run (CakePake P h) s os m) <-> ~ cake_bad (next_step rl l) m).
Proof.
  intros P h r ssid pw rl s0 r' l s os m N H. rewrite <- (cake_run_panics_iff P h r ssid pw rl s0 r' l s os m N H).
  destruct (pk_run (CakePake P h) s os m) as [[s' [o|e]]|] eqn:E.
  - split; [discriminate|]. intros _. apply ret_okp.
  - destruct (cake_never_err _ _ _ _ _ _ _ E).
  - split; [intro Q; destruct (panic_not_okp _ Q)|]. intro Q. destruct (Q eq_refl).
Qed.
(** KC-SPAKE2: [st0] and [own] are the SPAKE2 state and message drawn at creation.  The third
    message must end with the responder's MAC under the key the crate derives from the rest,
    and no message may have been refused before; the fourth is the initiator's MAC and nothing
    else. *)
Theorem kc_spake2_run_ok_iff : forall P S r ssid pw rl s0 r' st0 own r1 l s,
  let K := KcSpakePake P S in
  sp_start S pw ssid r = (st0, own, r1) -> pk_new K r ssid pw rl = Ret (s0, r') -> hist (pake_machine K) s0 l s ->
  match next_step rl l with
  | 0%nat => forall os m, ok_pake (pk_run K s os m) <-> m = []
  | 1%nat => forall os m, ok_pake (pk_run K s os m) <-> exists k, sp_finish S st0 m = Some k /\ (32 <= List.length k)%nat
  | 2%nat => forall os m, ok_pake (pk_run K s os m) <-> ~ failed_once l /\
      exists peer k, m = peer ++ kc_mac_r P pw own peer k /\ sp_finish S st0 peer = Some k /\ (32 <= List.length k)%nat
  | 3%nat => exists peer k, In (peer, Ok (Some (own ++ kc_mac_r P pw peer own k))) l /\ sp_finish S st0 peer = Some k /\
      forall os m, ok_pake (pk_run K s os m) <-> m = kc_mac_i P pw peer own k
  | _ => forall os m, pk_run K s os m = Panic
  end.
Proof.
  intros P S r ssid pw rl s0 r' st0 own r1 l s K ST0 N H. unfold K in *. clear K.
  pose proof (fun os m => kc_spake2_run_panics_iff P S r ssid pw rl s0 r' st0 own r1 l s os m ST0 N H) as PI.
  assert (ST : kc_step s = next_step rl l).
  { apply (step_of_log (pake_machine (KcSpakePake P S)) kc_step rl s0 (kc_spake2_steps P S r ssid pw rl s0 r' N)); [|exact H].
    cbn [KcSpakePake pk_new] in N. unfold kc_new in N. rewrite ST0 in N. injection N as <- _. reflexivity. }
  pose proof (kc_inv_hist _ _ _ _ _ _ _ _ _ _ _ _ _ ST0 N H) as [A [B IV]].
  cbn [KcSpakePake pk_run] in *. unfold kc_run in *. rewrite <- ST in *. rewrite A, B in *. destruct (kc_step s) as [|[|[|[|n]]]] eqn:SE; try rewrite SE in PI; cbn [kc_bad] in *.
  - intros os m. apply assert_nil_ok; [apply ret_okp|apply panic_not_okp].
  - intros os m. specialize (PI os m). unfold kc_refuses in PI. destruct (kc_state s) as [st|]; cbn [unwrap obind] in *.
    2:{ destruct PI as [PI _]. specialize (PI eq_refl). split; [intro Q; destruct (panic_not_okp _ Q)|].
        intros [k [E L]]. rewrite E in PI. lia. }
    assert (st = st0).
    { destruct rl; [destruct IV as [[Q _]|[[Q _]|[[Q _]|[Q _]]]]; discriminate Q|].
      destruct IV as [[_ [Q _]]|[[Q _]|[Q _]]]; [congruence|discriminate Q|discriminate Q]. }
    subst st. destruct (sp_finish S st0 m) as [k|]; cbn [unwrap obind] in *.
    + destruct (kc_derive P pw m own k) as [[[m0 m1] key]|] eqn:KD; cbn [obind] in *.
      * apply kc_derive_inv in KD. split; [|intros _; apply ret_okp]. intros _. exists k. split; [reflexivity|apply KD].
      * apply kc_derive_panic in KD. split; [intro Q; destruct (panic_not_okp _ Q)|]. intros [k' [Q1 Q2]]. injection Q1 as <-. lia.
    + split; [intro Q; destruct (panic_not_okp _ Q)|]. intros [k' [Q1 Q2]]. discriminate Q1.
  - intros os m. specialize (PI os m). split.
    + intros [s' [o E]]. obi E.
      match goal with X : split_last _ _ = Ret _ |- _ => apply split_last_inv in X; destruct X as [-> LM] end.
      match goal with X : kc_derive _ _ _ _ _ = Ret _ |- _ => apply kc_derive_inv in X; destruct X as [LK X]; injection X as -> -> -> end.
      match type of E with (if beq ?u ?v then _ else _) = _ => destruct (beq u v) eqn:Q end; [|discriminate E]. apply beq_spec in Q. subst.
      destruct (kc_state s) as [st|] eqn:KS; [|match goal with X : unwrap None = Ret _ |- _ => discriminate X end].
      assert (st = st0).
      { destruct rl; [|destruct IV as [[Q _]|[[Q _]|[Q _]]]; discriminate Q].
        destruct IV as [[Q _]|[[_ [Q _]]|[[_ [Q _]]|[Q _]]]]; try discriminate Q; congruence. }
      subst st. unw. split.
      * intro FO. destruct PI as [_ PI]. cbn [unwrap obind] in PI.
        match goal with X : unwrap (sp_finish S st0 ?p) = Ret ?k |- _ => destruct (sp_finish S st0 p) as [k'|] eqn:SF; [|discriminate X]; cbn [unwrap] in X; injection X as -> end.
        cbn [unwrap obind] in PI. rewrite kc_derive_ok in PI by exact LK. cbn [obind] in PI. rewrite beq_refl in PI.
        specialize (PI (or_intror (or_introl FO))). discriminate PI.
      * match goal with X : unwrap (sp_finish S st0 ?p) = Ret ?k |- _ => exists p, k; destruct (sp_finish S st0 p) as [k'|] eqn:SF; [|discriminate X]; cbn [unwrap] in X; injection X as -> end.
        auto.
    + intros [NF [peer [k [-> [SF LK]]]]].
      rewrite split_last_app in * by (apply kc_mac_r_length). cbn [obind] in *.
      destruct (kc_state s) as [st|] eqn:KS.
      2:{ exfalso. cbn [unwrap obind] in PI. destruct PI as [PI _]. destruct (PI eq_refl) as [Q|[Q|Q]].
          - rewrite app_length, kc_mac_r_length in Q. lia.
          - contradiction.
          - unfold kc_refuses, but_last in Q. rewrite app_length, kc_mac_r_length in Q.
            replace (List.length peer + 32 - 32)%nat with (List.length peer) in Q by lia.
            rewrite firstn_app, Nat.sub_diag, firstn_all, firstn_O, app_nil_r, SF in Q. lia. }
      assert (st = st0).
      { destruct rl; [|destruct IV as [[Q _]|[[Q _]|[Q _]]]; discriminate Q].
        destruct IV as [[Q _]|[[_ [Q _]]|[[_ [Q _]]|[Q _]]]]; try discriminate Q; congruence. }
      subst st. cbn [unwrap obind]. rewrite SF. cbn [unwrap obind]. rewrite kc_derive_ok by exact LK. cbn [obind]. rewrite beq_refl. apply ret_okp.
  - destruct rl; [destruct IV as [[Q _]|[[Q _]|[[Q _]|[Q _]]]]; discriminate Q|].
    destruct IV as [[Q _]|[[_ [D0 [msg [k [F [IN [K0 M0]]]]]]]|[Q _]]]; [discriminate Q| |discriminate Q].
    exists msg, k. split; [exact IN|]. split; [exact F|]. intros os m. rewrite M0. cbn [unwrap obind].
    destruct (beq (kc_mac_i P pw msg own k) m) eqn:Q.
    + apply beq_spec in Q. split; [auto|]. intros _. apply ret_okp.
    + split; [intro X; destruct (err_not_okp _ _ _ X)|]. intros ->. rewrite beq_refl in Q. discriminate Q.
  - reflexivity.
Qed.
Lemma cpace_never_err : forall C s os m s' e, pk_run (CpacePake C) s os m <> Ret (s', Err e).
Proof.
  intros C s os m s' e E. cbn [CpacePake pk_run] in E. unfold cpace_run in E. destruct (cp_step s) as [|[|[|k]]]; obi E; discriminate E.
Qed.
(** CPace never answers Err either: whatever the crate's three steps accept is accepted. *)
Theorem cpace_run_ok_iff : forall C r ssid pw rl s0 r' l s,
  pk_new (CpacePake C) r ssid pw rl = Ret (s0, r') ->
  hist (pake_machine (CpacePake C)) s0 l s ->
  let step1 := cp_step1 C (b64_encode pw) (str "latke_cpace_initiator") (str "latke_cpace_responder") ssid in
  let step2 p := cp_step2 C p (b64_encode pw) (str "latke_cpace_initiator") (str "latke_cpace_responder") ssid in
  match next_step rl l with
  | 0%nat => forall os m, ok_pake (pk_run (CpacePake C) s os m) <-> m = [] /\ step1 os <> None
  | 1%nat => forall os m, ok_pake (pk_run (CpacePake C) s os m) <-> List.length m = 48%nat /\ step2 m os <> None
  | 2%nat => exists os0 st, step1 os0 = Some st /\ l = [([], Ok (Some (cpace_packet1 C st)))] /\
      forall os m, ok_pake (pk_run (CpacePake C) s os m) <-> List.length m = 32%nat /\ cp_step3 C st m <> None
  | _ => forall os m, pk_run (CpacePake C) s os m = Panic
  end.
Proof.
  intros C r ssid pw rl s0 r' l s N H step1 step2.
  assert (OK : forall os m, ok_pake (pk_run (CpacePake C) s os m) <-> pk_run (CpacePake C) s os m <> Panic).
  { intros os m. destruct (pk_run (CpacePake C) s os m) as [[s' [o|e]]|] eqn:E.
    - split; [discriminate|]. intros _. apply ret_okp.
    - destruct (cpace_never_err _ _ _ _ _ _ E).
    - split; [intro Q; destruct (panic_not_okp _ Q)|]. intro Q. destruct (Q eq_refl). }
  pose proof (fun os m => cpace_run_panics_iff C r ssid pw rl s0 r' l s os m N H) as PI. cbv zeta in PI. fold step1 in PI. unfold step2 in *.
  destruct (next_step rl l) as [|[|[|n]]].
  - intros os m. rewrite OK, PI. destruct m as [|x m]; split.
    + intro Q. split; [reflexivity|]. intro X. apply Q. auto.
    + intros [_ Q] [X|X]; contradiction.
    + intro Q. exfalso. apply Q. left. discriminate.
    + intros [Q _]. discriminate Q.
  - intros os m. rewrite OK, PI. destruct (Nat.eq_dec (List.length m) 48) as [L|L]; split; try tauto.
  - destruct (PI (fun _ => 0) []) as [os0 [st [E1 [E2 PJ]]]]. exists os0, st. split; [exact E1|]. split; [exact E2|].
    intros os m. rewrite OK, PJ. destruct (Nat.eq_dec (List.length m) 32) as [L|L]; split; try tauto.
  - exact PI.
Qed.

(* ------------------------------------------------------------------ *)
(** ** Both answers occur, on messages that do not panic *)
(** What an initiator sends first, and what a fresh responder of the same main key says to it
    and to the same message with its last byte changed. *)
Definition second_answers (I : ibke) (alter : bytes -> bytes) : option (bool * bool) :=
  let '(mpk, msk, _) := gen_main I (fun _ => 3) in
  let '(upk, usk, _) := gen_user I (fun _ => 5) in
  let '(cert, _) := ik_extract I (fun _ => 6) msk (repeat 7 32) upk in
  match ik_run I (fst (ik_new I (fun _ => 0) [1] mpk cert usk Initiator)) (fun _ => 8) (fun _ => 9) [] with
  | Ret (_, Ok (Some m), _) =>
    let answer x := match ik_run I (fst (ik_new I (fun _ => 0) [1] mpk cert usk Responder)) (fun _ => 10) (fun _ => 11) x with
                    | Ret (_, Ok _, _) => Some true | Ret (_, Err _, _) => Some false | Panic => None end in
    match answer m, answer (alter m) with Some a, Some b => Some (a, b) | _, _ => None end
  | _ => None
  end.
Definition bump_last (m : bytes) : bytes := removelast m ++ [1 - hd 0 (rev m)].
Example ibke_ok_and_err_occur :
  second_answers (IdSigDh toy_prims) bump_last = Some (true, false) /\
  second_answers (IdHmqvC toy_prims toy_group) bump_last = Some (true, false).
Proof. split; vm_compute; reflexivity. Qed.
Example sigma_ok_meets : forall P h r ssid mpk cert usk r' os,
  let I := IdSigmaR (fst mpk) P h in
  ok_ibke (ik_run I (fst (ik_new I r ssid mpk cert usk Responder)) r' os (repeat 0 704)).
Proof.
  intros P h r ssid mpk cert usk r' os I.
  pose proof (sigma_run_ok_iff P h r ssid mpk cert usk Responder [] _ (hist_init _ _)) as Q. cbv zeta in Q.
  unfold next_step, first_step in Q. cbn [succeeded Nat.mul Nat.add] in Q. apply Q. apply repeat_length.
Qed.
