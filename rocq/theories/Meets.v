(** * Meets: concrete cases that meet the hypotheses of theorems about encrypted sessions,
    certificates and LATKE (C16-C18, C27, C34, C35). *)
From Coq Require Import ZArith List Lia Bool String.
From Verif Require Import Base SaberKem SaberSpec SaberWitness Crypto Symmetric PropsSym Driver Pakes PropsPake Ibkes IbkeSpec PropsSigDh PropsHmqv PropsFg PropsSigma
  IbkeToy Eue PropsEue LatkeHist Latke PropsLatke PropsLatke2 PropsConv PropsConv2.
Import ListNotations.
Open Scope Z_scope.

(** Under every key and at every length from 44 bytes there is a ciphertext that is refused. *)
Lemma forged_exists : forall P key n, exists c, is_bytes c /\ List.length c = (n + 44)%nat /\ forall m, auth_decrypt P key c <> Ret (Ok m).
Proof.
  intros P key n. set (b := repeat 0 (n + 12)).
  assert (F : forall t, List.length t = 32%nat -> is_bytes t -> t <> hmac P (skipn 32 key) b ->
    is_bytes (b ++ t) /\ List.length (b ++ t) = (n + 44)%nat /\ forall m, auth_decrypt P key (b ++ t) <> Ret (Ok m)).
  { intros t L B N. split; [apply is_bytes_app; split; [|exact B]; unfold is_bytes; apply Forall_forall; intros x X; apply repeat_spec in X; subst; unfold is_byte; lia|].
    split; [unfold b; rewrite app_length, repeat_length; lia|].
    intros m H. apply auth_decrypt_ok_inv in H. destruct H as (body & nonce & E & L2 & _). rewrite app_assoc in E.
    assert (LB : List.length b = List.length (body ++ nonce)).
    { apply (f_equal (@List.length Z)) in E. rewrite (app_length b), (app_length (body ++ nonce)), hmac_length, L in E. lia. }
    assert (E1 : firstn (List.length b) (b ++ t) = b) by (rewrite firstn_app, Nat.sub_diag, firstn_O, app_nil_r; apply firstn_all).
    assert (E2 : skipn (List.length b) (b ++ t) = t) by (rewrite skipn_app, Nat.sub_diag, skipn_all; reflexivity).
    rewrite E in E1, E2. rewrite LB in E1, E2. rewrite firstn_app, Nat.sub_diag, firstn_O, app_nil_r, firstn_all in E1.
    rewrite skipn_app, Nat.sub_diag, skipn_all in E2. cbn [app skipn] in E2. rewrite E1 in E2. apply N. symmetry. exact E2. }
  assert (BZ : forall z, is_byte z -> is_bytes (repeat z 32)).
  { intros z Z0. apply Forall_forall. intros x X. apply repeat_spec in X. subst. exact Z0. }
  destruct (list_eq_dec Z.eq_dec (repeat 0 32) (hmac P (skipn 32 key) b)) as [E|E].
  - exists (b ++ repeat 1 32). apply F; [apply repeat_length|apply BZ; unfold is_byte; lia|]. rewrite <- E. discriminate.
  - exists (b ++ repeat 0 32). apply F; [apply repeat_length|apply BZ; unfold is_byte; lia|exact E].
Qed.

(** ** C16-C18: a pair of encrypted ID-SIG-DH sessions *)
(** For the users that password files describe: a pair of encrypted sessions exists, its honest run
    completes, it is in progress after one step; and its responder, fresh, panics on a short and on a
    long forged message. *)
Example eue_meets : exists mpk cI cR uI uR eI eR, let I := IdSigDh toy_prims in
  eue_pair toy_prims I (repeat 4 32) [1] (fun _ => 5) (fun _ => 9) mpk mpk cI cR uI uR eI eR /\
  (let r := honest_run (eue_machine toy_prims I) 4 (fun _ => (fun _ => 7, fun _ => 8)) eI eR in
     r_status r = Completed /\ eue_done I (r_init r) = true /\ eue_done I (r_resp r) = true /\ List.length (r_outs r) = 3%nat) /\
  r_status (honest_run (eue_machine toy_prims I) 1 (fun _ => (fun _ => 7, fun _ => 8)) eI eR) = OutOfFuel /\
  reach (eue_machine toy_prims I) eR eR /\
  (exists c, List.length c = 300%nat /\ (forall m, auth_decrypt toy_prims (e_msg_key eR) c <> Ret (Ok m)) /\
     eue_run toy_prims I eR (fun _ => 1) (fun _ => 2) c = Panic) /\
  eue_run toy_prims I eR (fun _ => 1) (fun _ => 2) [1] = Panic.
Proof.
  destruct (gen_main (IdSigDh toy_prims) (fun _ => 3)) as [[mpk msk] rm] eqn:GM.
  assert (EX : forall (id : bytes) (r : rng), exists c u, enrolled (IdSigDh toy_prims) msk id c u).
  { intros id r. destruct (gen_user (IdSigDh toy_prims) r) as [[U sk] r1] eqn:GU. destruct (ik_extract (IdSigDh toy_prims) r1 msk id U) as [c r2] eqn:EX.
    exists c, sk, r, U, r1, r1, r2. split; [exact GU|exact EX]. }
  destruct (EX (repeat 1 32) (fun _ => 5)) as (cI & uI & EI). destruct (EX (repeat 2 32) (fun _ => 6)) as (cR & uR & ER). clear EX.
  set (tape := fun _ : nat => ((fun _ => 7) : rng, (fun _ => 8) : rng)).
  destruct (sig_dh_agreement toy_prims (toy_sig_correct _) toy_dh_commutes _ _ _ _ (repeat 1 32) (repeat 2 32) cI cR uI uR [1] (fun _ => 5) (fun _ => 9) tape GM eq_refl eq_refl EI ER Logic.I)
    as (msgs & sI & sR & k & HR & LM & _ & D1 & D2 & _).
  destruct (eue_transparent toy_prims (IdSigDh toy_prims) (repeat 4 32) [1] (fun _ => 5) (fun _ => 9) mpk mpk cI cR uI uR eq_refl) as (eI & eR & EP & T).
  exists mpk, cI, cR, uI, uR, eI, eR. cbv zeta. split; [exact EP|].
  split.
  { specialize (T 4%nat tape). cbv zeta in T. destruct T as (T1 & T2 & T3 & _ & _ & T6 & _).
    change (2 + 2)%nat with 4%nat in HR. rewrite HR in T1, T2, T3, T6. cbn [r_status r_init r_resp r_outs] in T1, T2, T3, T6.
    split; [exact T1|]. split; [exact (eq_trans T2 D1)|]. split; [exact (eq_trans T3 D2)|]. refine (eq_trans T6 _). rewrite app_length, map_length, LM. reflexivity. }
  split.
  { specialize (T 1%nat tape). cbv zeta in T. destruct T as (T1 & _). refine (eq_trans T1 _). reflexivity. }
  destruct EP as [_ NR].
  split; [apply reach_init|]. split.
  - destruct (forged_exists toy_prims (e_msg_key eR) 256) as (c & _ & LC & NC). exists c. split; [exact LC|]. split; [exact NC|].
    apply (eue_bad_ciphertext_panics _ _ _ _ _ _ _ _ _ _ _ eR _ _ c NR (reach_init _ _)); [|exact NC]. intro E. rewrite E in LC. discriminate LC.
  - apply (eue_short_ciphertext_panics _ _ _ _ _ _ _ _ _ _ _ eR _ _ [1] NR (reach_init _ _)). cbn. lia.
Qed.

(** ** C27: certificates of the right form exist, for every user *)
Example certs_meet : forall (r : rng) (id : bytes), List.length id = 32%nat ->
  (exists c, sd_cert_wf toy_prims c /\ sdc_id c = id) /\
  (exists c : hm_cert toy_group, hm_cert_wf toy_group c) /\
  (forall ty, exists c, sm_cert_wf toy_prims ty c).
Proof.
  intros r id L. destruct (pwfile_credentials toy_prims toy_group SaberWitness.light_wit [9] r id L) as (A & H & _ & S).
  split; [|split].
  - eexists. split; [apply A, toy_sig_correct|]. unfold gen_pwfile.
    destruct (gen_main _ _) as [[mpk msk] rm]. destruct (gen_user _ _) as [[U sk] r1]. reflexivity.
  - eexists. apply H, toy_sig_correct.
  - intro ty. eexists. exact (proj1 (proj2 (S ty (toy_sig_correct ty)))).
Qed.

(** ** C34, C35: a LATKE session in its encrypted phase, and ciphertexts that it cannot open *)
Example latke_phase_meets : exists s0 r' l s e c (pf : pwfile (IdSigDh toy_prims)), let I := IdSigDh toy_prims in let K := KcSpakePake toy_prims toy_spake in
  silent_when_done K /\
  latke_new I K (fun _ => 1) [7] pf Initiator (PreSpecified (repeat 2 32)) = Ret (s0, r') /\
  hist (latke_machine toy_prims I K) s0 l s /\ l_ibke s = Some e /\ (exists id key, latke_fin toy_prims I K s = Ret (id, key)) /\
  c <> [] /\ (forall m, auth_decrypt toy_prims (e_msg_key e) c <> Ret (Ok m)) /\
  latke_run toy_prims I K s (fun _ => 3) (fun _ => 4) c = Panic.
Proof.
  destruct latke_equal_keys_meet as (sI & rI' & sR & rR' & lI & lR & fI & fR & key & pf & pf' & N & _ & H & _ & _ & _ & F & _ & _ & _ & _ & SD).
  destruct (latke_key_binds_transcript _ _ _ _ _ _ _ _ _ _ _ _ _ _ SD N H F) as (e & ik & LE & _).
  destruct (forged_exists toy_prims (e_msg_key e) 9) as (c & _ & LC & NC).
  assert (C0 : c <> []) by (intro E; rewrite E in LC; discriminate LC).
  exists sI, rI', lI, fI, e, c, pf. cbv zeta. split; [exact SD|]. split; [exact N|]. split; [exact H|]. split; [exact LE|].
  split; [eexists _, _; exact F|]. split; [exact C0|]. split; [exact NC|].
  exact (latke_bad_ciphertext_panics _ _ _ _ _ _ _ _ _ _ _ _ _ _ _ _ SD N H LE C0 NC).
Qed.
