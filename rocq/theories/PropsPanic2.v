(** * PropsPanic2: exactly which calls to [run] panic, for encrypted sessions and for LATKE (C64). *)
From Coq Require Import ZArith List Lia Bool String.
From Verif Require Import Base SaberPoly SaberKem Crypto Symmetric Driver Pakes PropsSym PropsPake
  Ibkes IbkeSpec PropsSigDh PropsHmqv PropsFg PropsSigma IbkeToy Eue PropsEue Latke LatkeHist PropsLatke PropsLatke2 Chip PropsChip PropsPanic.
Import ListNotations.
Open Scope Z_scope.

(* ------------------------------------------------------------------ *)
(** ** Specification *)
(** A PAKE whose finished sessions, however they were driven, hand over a key that the KDF
    accepts. *)
Definition hands_over (K : pake) : Prop :=
  forall r ssid pw rl s0 r' s, pk_new K r ssid pw rl = Ret (s0, r') -> reach (pake_machine K) s0 s ->
    pk_done K s = true -> exists k, pk_fin K s = Ret k /\ (32 <= List.length k)%nat.
(** An IBKE whose fresh initiator answers the empty message. *)
Definition starts (I : ibke) (mpk : MPK I) (cert : CERT I) (usk : USK I) : Prop :=
  forall r ssid r1 os, exists s' o r',
    ik_run I (fst (ik_new I r ssid mpk cert usk Initiator)) r1 os [] = Ret (s', Ok o, r').
(** The message opens, at position [pos] of the key schedule, to one on which the inner session
    [s] returns Ok. *)
Definition opens_to_ok (P : prims) (I : ibke) (key ssid : bytes) (pos : nat) (s : IST I) (r os : rng) (c : bytes) : Prop :=
  exists m s' o r', flight P key ssid pos m c /\ ik_run I s r os m = Ret (s', Ok o, r').

(* ------------------------------------------------------------------ *)
(** ** EUE *)
Lemma eue_step : forall P I key ssid rl n s e r os c, eue_at P I key ssid rl n s e ->
  (eue_run P I e r os c = Panic /\ forall m, ~ flight P key ssid (recv_pos rl n) m c) \/
  exists m, flight P key ssid (recv_pos rl n) m c /\ (forall m', flight P key ssid (recv_pos rl n) m' c -> m' = m) /\
    match ik_run I s r os m with
    | Panic => eue_run P I e r os c = Panic
    | Ret (_, Err er, _) => exists e' r', eue_run P I e r os c = Ret (e', Err er, r')
    | Ret (_, Ok _, _) => exists e' o r', eue_run P I e r os c = Ret (e', Ok o, r')
    end.
Proof.
  intros P I key ssid rl n s e r os c A. unfold eue_at in A. set (f := match rl, n with Initiator, O => true | _, _ => false end) in A.
  assert (E2 : exists e2, eue_pre P I e = Ret e2 /\ exists j, at_pos P I key ssid j false s e2).
  { unfold eue_pre. destruct f; unfold at_pos in A; rewrite A; cbn [e_first negb].
    - eexists. split; [reflexivity|]. exists (recv_pos rl n). reflexivity.
    - destruct (ratchet_at P I key ssid (recv_pos rl n) false s _ eq_refl) as [e2 [R2 A2]]. exists e2. split; [exact R2|]. eauto. }
  destruct E2 as [e2 [E2 [j A2]]].
  assert (GO : forall m, eue_incoming P I e c = Ret (Some m, e) ->
    match ik_run I s r os m with
    | Panic => eue_run P I e r os c = Panic
    | Ret (_, Err er, _) => exists e' r', eue_run P I e r os c = Ret (e', Err er, r')
    | Ret (_, Ok _, _) => exists e' o r', eue_run P I e r os c = Ret (e', Ok o, r')
    end).
  { intros m IN. unfold eue_run. rewrite IN. cbn [obind]. rewrite E2. cbn [obind]. unfold at_pos in A2. rewrite A2.
    cbn [e_real unwrap obind e_sess e_msg_key e_chain_key e_first].
    destruct (ik_run I s r os m) as [[[s' [a|er]] r1]|]; cbn [obind].
    - destruct (eue_post_at P I key ssid j s' (Eue (key_at P key ssid j) (chain_at P key ssid j) s' false true) r1 a eq_refl) as [e' [b [r' [-> _]]]]. eauto.
    - eauto.
    - reflexivity. }
  destruct c as [|z c].
  - right. exists []. split; [left; auto|]. split; [intros m' [[Q _]|[Q _]]; [exact Q|congruence]|]. apply GO. reflexivity.
  - assert (IN : eue_incoming P I e (z :: c) =
      let! pt := auth_decrypt P (key_at P key ssid (recv_pos rl n)) (z :: c) in
      match pt with Ok m => Ret (Some m, e) | Err _ => Panic end).
    { unfold eue_incoming. unfold at_pos in A. rewrite A. cbn [e_real e_msg_key].
      replace (0 <? List.length (z :: c))%nat with true by (symmetry; apply Nat.ltb_lt; cbn; lia). cbn [andb].
      destruct (auth_decrypt P (key_at P key ssid (recv_pos rl n)) (z :: c)) as [[m|u]|]; reflexivity. }
    destruct (auth_decrypt P (key_at P key ssid (recv_pos rl n)) (z :: c)) as [[m|u]|] eqn:D; cbn [obind] in IN.
    + right. exists m. split; [right; split; [discriminate|exact D]|]. split; [|apply GO; exact IN].
      intros m' [[_ Q]|[_ Q]]; [discriminate Q|]. rewrite D in Q. injection Q as ->. reflexivity.
    + left. split; [unfold eue_run; rewrite IN; reflexivity|]. intros m' [[_ Q]|[_ Q]]; [discriminate Q|]. rewrite D in Q. discriminate Q.
    + left. split; [unfold eue_run; rewrite IN; reflexivity|]. intros m' [[_ Q]|[_ Q]]; [discriminate Q|]. rewrite D in Q. discriminate Q.
Qed.
(** An encrypted session panics exactly on the messages that do not open under the key of its
    position, and on those that open to a message on which the inner session panics; the inner
    session is where the opened messages brought it. *)
Theorem eue_run_panics_iff : forall P I r ssid mpk cert usk rl key e0 r' x e,
  eue_new P I r ssid mpk cert usk rl key = Ret (e0, r') ->
  hist (eue_machine P I) e0 (oks x) e ->
  exists y s, hist (ibke_machine I) (fst (ik_new I r ssid mpk cert usk rl)) (oks y) s /\ opens P key ssid rl x y /\
    forall r1 os c, eue_run P I e r1 os c = Panic <->
      forall m, flight P key ssid (recv_pos rl (List.length x)) m c -> ik_run I s r1 os m = Panic.
Proof.
  intros P I r ssid mpk cert usk rl key e0 r' x e N H.
  destruct (eue_hist_at _ _ _ _ _ _ _ _ _ _ _ _ _ N H) as [y [HY [O A]]]. exists y, (e_sess e). split; [exact HY|]. split; [exact O|].
  intros r1 os c. destruct (eue_step _ _ _ _ _ _ _ _ r1 os c A) as [[-> NF]|[m [F [U R]]]].
  - split; [intros _ m F; destruct (NF m F)|reflexivity].
  - split.
    + intros Q m' F'. rewrite (U m' F'). destruct (ik_run I (e_sess e) r1 os m) as [[[s' [a|er]] r2]|]; [| |reflexivity].
      * destruct R as [e' [o [r3 R]]]. congruence.
      * destruct R as [e' [r3 R]]. congruence.
    + intro Q. rewrite (Q m F) in R. exact R.
Qed.
(** A LATKE call on the encrypted session: it panics on an inner error too. *)
Lemma latke_eue_step : forall P I key ssid rl n s e r os c, eue_at P I key ssid rl n s e ->
  (latke_eue_run P I e r os c = Panic <-> ~ opens_to_ok P I key ssid (recv_pos rl n) s r (os_ibke os) c).
Proof.
  intros P I key ssid rl n s e r os c A. unfold latke_eue_run, opens_to_ok.
  destruct (eue_step _ _ _ _ _ _ _ _ r (os_ibke os) c A) as [[-> NF]|[m [F [U R]]]].
  - cbn [obind]. split; [|reflexivity]. intros _ [m [s' [o [r' [F _]]]]]. destruct (NF m F).
  - destruct (ik_run I s r (os_ibke os) m) as [[[s' [a|er]] r2]|] eqn:ER.
    + destruct R as [e' [o [r3 ->]]]. cbn [obind unwrap_ok]. split; [discriminate|]. intro Q. destruct Q. exists m, s', a, r2. auto.
    + destruct R as [e' [r3 ->]]. cbn [obind unwrap_ok]. split; [|reflexivity]. intros _ [m' [s1 [o [r' [F' E']]]]].
      rewrite (U m' F'), ER in E'. discriminate E'.
    + rewrite R. cbn [obind]. split; [|reflexivity]. intros _ [m' [s1 [o [r' [F' E']]]]]. rewrite (U m' F'), ER in E'. discriminate E'.
Qed.

(* ------------------------------------------------------------------ *)
(** ** LATKE *)
Lemma eue_new_ret : forall P I r ssid mpk cert usk rl k, (32 <= List.length k)%nat ->
  exists e, eue_new P I r ssid mpk cert usk rl k = Ret (e, snd (ik_new I r ssid mpk cert usk rl)).
Proof.
  intros. unfold eue_new. destruct (ik_new I r ssid mpk cert usk rl) as [s r1]. rewrite from_prk_ok by lia. cbn [obind snd]. eauto.
Qed.
(** While its PAKE runs, a session panics exactly when the PAKE does not return Ok on the
    message; afterwards exactly when the message does not open, under the PAKE key and the key
    schedule, to one on which the IBKE returns Ok. *)
Theorem latke_run_panics_iff : forall P I K r ssid pf rl peer s0 r' l s,
  silent_when_done K -> hands_over K -> (rl = Initiator -> starts I (pf_mpk pf) (pf_cert pf) (pf_usk pf)) ->
  latke_new I K r ssid pf rl peer = Ret (s0, r') ->
  hist (latke_machine P I K) s0 l s ->
  exists x p0 xp p, l = oks x /\ pk_new K r ssid (pake_input I pf rl peer) rl = Ret (p0, r') /\ hist (pake_machine K) p0 (oks xp) p /\
    if pk_done K p then
      exists k xe y, pk_fin K p = Ret k /\ merges rl x xp xe /\ opens P k ssid rl xe y /\
        forall r1 os m, exists rn ri si,
          hist (ibke_machine I) (fst (ik_new I rn ssid (pf_mpk pf) (pf_cert pf) (pf_usk pf) rl)) (oks y) si /\
          (ri = r1 \/ (xe = [] /\ rn = r1 /\ ri = snd (ik_new I r1 ssid (pf_mpk pf) (pf_cert pf) (pf_usk pf) rl))) /\
          (latke_run P I K s r1 os m = Panic <->
           ~ opens_to_ok P I k ssid (recv_pos rl (List.length xe)) si ri (os_ibke os) m)
    else x = xp /\ forall r1 os m,
      (latke_run P I K s r1 os m = Panic <-> ~ exists p' o, pk_run K p (os_pake os) m = Ret (p', Ok o)).
Proof.
  intros P I K r ssid pf rl peer s0 r' l s SD HO ST N H. destruct (latke_log_oks P I K l) as [x ->].
  destruct (latke_parts_hist P I K r ssid pf rl peer SD s0 r' x s N H) as [p0 [PN [[ES [EP [ER [xp [HP C]]]]] _]]].
  exists x, p0, xp, (l_pake s). split; [reflexivity|]. split; [exact PN|]. split; [exact HP|].
  destruct (pk_done K (l_pake s)) eqn:D.
  - destruct C as [[LN [-> NS]]|[k [r1 [e0 [r2 [e [xe [_ [FK [LN [MG [EN HE]]]]]]]]]]]].
    + destruct (HO _ _ _ _ _ _ _ PN (hist_reach _ _ _ _ HP) D) as [k [FK LK]].
      exists k, [], []. split; [exact FK|]. split; [left; split; [symmetry; apply app_nil_r|intros _; exact NS]|]. split; [apply opens_nil|].
      intros r1 os m. destruct (eue_new_ret P I r1 ssid (pf_mpk pf) (pf_cert pf) (pf_usk pf) rl k LK) as [e EN].
      exists r1. eexists. eexists. split; [constructor|]. split; [right; split; [reflexivity|split; reflexivity]|].
      unfold latke_run, latke_pake. rewrite D. cbn [negb obind]. unfold latke_eue. rewrite LN, ES, EP, ER, FK. cbn [obind]. rewrite EN. cbn [obind].
      apply eue_new_inv in EN. rewrite <- (latke_eue_step _ _ _ _ _ _ _ _ _ os m EN).
      destruct (latke_eue_run P I e _ os m) as [[e' o]|]; cbn [obind]; split; intro Q; (discriminate Q || reflexivity).
    + destruct (eue_hist_at _ _ _ _ _ _ _ _ _ _ _ _ _ EN HE) as [y [HY [O A]]].
      exists k, xe, y. split; [exact FK|]. split; [exact MG|]. split; [exact O|]. intros r3 os m.
      exists r1, r3, (e_sess e). split; [exact HY|]. split; [left; reflexivity|].
      unfold latke_run, latke_pake. rewrite D. cbn [negb obind]. unfold latke_eue. rewrite LN. cbn [obind].
      rewrite <- (latke_eue_step _ _ _ _ _ _ _ _ r3 os m A).
      destruct (latke_eue_run P I e r3 os m) as [[e' o]|]; cbn [obind]; split; intro Q; (discriminate Q || reflexivity).
  - destruct C as [[LN [-> NS]]|[k [r1 [e0 [r2 [e [xe [D' _]]]]]]]]; [|congruence].
    split; [reflexivity|]. intros r1 os m. unfold latke_run, latke_pake. rewrite D. cbn [negb].
    destruct (pk_run K (l_pake s) (os_pake os) m) as [[p' [o|er]]|] eqn:RP; cbn [obind unwrap_ok].
    + split; [|intro Q; destruct Q; eauto]. intro Q. exfalso. destruct o as [o|]; [discriminate Q|].
      pose proof (SD _ _ _ _ RP) as D'. rewrite D' in Q.
      assert (RE : reach (pake_machine K) p0 p').
      { eapply (reach_run (pake_machine K) p0 (l_pake s) (os_pake os, os_pake os)); [apply (hist_reach _ _ _ _ HP)|exact RP]. }
      destruct (HO _ _ _ _ _ _ _ PN RE D') as [k [FK LK]].
      destruct (eue_new_ret P I r1 ssid (pf_mpk pf) (pf_cert pf) (pf_usk pf) rl k LK) as [e EN].
      unfold latke_eue in Q. rewrite LN, ES, EP, ER, FK in Q. cbn [obind] in Q. rewrite EN in Q. cbn [obind] in Q.
      destruct rl; cbn [role_eqb] in Q; [|discriminate Q].
      apply eue_new_inv in EN. pose proof (latke_eue_step _ _ _ _ _ _ _ _ (snd (ik_new I r1 ssid (pf_mpk pf) (pf_cert pf) (pf_usk pf) Initiator)) os [] EN) as LE.
      destruct (latke_eue_run P I e _ os []) as [[e' o]|]; cbn [obind] in Q; [discriminate Q|].
      destruct LE as [LE _]. destruct (LE eq_refl).
      destruct (ST eq_refl r1 ssid (snd (ik_new I r1 ssid (pf_mpk pf) (pf_cert pf) (pf_usk pf) Initiator)) (os_ibke os)) as [s' [o [r3 R3]]].
      exists [], s', o, r3. split; [left; auto|exact R3].
    + split; [|reflexivity]. intros _ [p1 [o E]]. discriminate E.
    + split; [|reflexivity]. intros _ [p1 [o E]]. discriminate E.
Qed.

(* ------------------------------------------------------------------ *)
(** ** The shipped PAKEs hand over a key, the shipped IBKEs start *)
Local Opaque INDCPA_PUBLICKEYBYTES BYTES_CCA_DEC
  keygen_ind_cpa encapsulate_ind_cpa decapsulate_ind_cpa ideal_cipher_encrypt ideal_cipher_decrypt.
Lemma cake_hands_over : forall P h, hands_over (CakePake P h).
Proof.
  intros P h r ssid pw rl s0 r' s N R.
  assert (IV : ck_done s = true -> exists k, ck_key s = Some k /\ List.length k = 32%nat).
  { induction R as [|s rr m s' o R IH E].
    - cbn in N. injection N as <- _. discriminate.
    - cbn [pake_machine CakePake m_run pk_run m_st PST] in *. unfold cake_run in E.
      destruct (ck_step s) as [|[|[|n]]] eqn:Q; obi E.
      + injection E as <- _. cbn [ck_done ck_key]. exact IH.
      + injection E as <- _. cbn [ck_done ck_key]. intros _. eexists. split; [reflexivity|].
        subst. match goal with EN : encapsulate_ind_cpa _ _ _ _ = _ |- _ => apply encaps_ss_light in EN; exact EN end.
      + injection E as <- _. cbn [ck_done ck_key]. intros _. eexists. split; [reflexivity|]. apply decaps_len_light. }
  intro D. destruct (IV D) as [k [K L]]. exists k. cbn [CakePake pk_fin]. rewrite K. split; [reflexivity|lia].
Qed.
Lemma cpace_hands_over : forall C, hands_over (CpacePake C).
Proof.
  intros C r ssid pw rl s0 r' s N R.
  assert (IV : cp_done s = true -> exists k, cp_key s = Some k /\ List.length k = 32%nat).
  { induction R as [|s rr m s' o R IH E].
    - cbn in N. injection N as <- _. discriminate.
    - cbn [pake_machine CpacePake m_run pk_run m_st PST] in *. unfold cpace_run in E.
      destruct (cp_step s) as [|[|[|n]]] eqn:Q; obi E; injection E as <- _; cbn [cp_done cp_key];
      [exact IH| |]; intros _; eexists; (split; [reflexivity|apply bytes_of_length]). }
  intro D. destruct (IV D) as [k [K L]]. exists k. cbn [CpacePake pk_fin]. rewrite K. split; [reflexivity|lia].
Qed.
Lemma kc_spake2_hands_over : forall P S, hands_over (KcSpakePake P S).
Proof.
  intros P S r ssid pw rl s0 r' s N R.
  assert (IV : (forall x, kc_macs s = Some x -> exists k, kc_key s = Some k /\ List.length k = 32%nat) /\
               (kc_done s = true -> exists k, kc_key s = Some k /\ List.length k = 32%nat)).
  { induction R as [|s rr m s' o R IH E].
    - cbn [KcSpakePake pk_new] in N. unfold kc_new in N. destruct (sp_start S pw ssid r) as [[st own] r1].
      injection N as <- _. split; discriminate.
    - destruct IH as [I1 I2]. cbn [pake_machine KcSpakePake m_run pk_run m_st PST] in *. unfold kc_run in E.
      destruct (kc_step s) as [|[|[|[|n]]]] eqn:Q; obi E.
      + injection E as <- _. split; assumption.
      + injection E as <- _. cbn [kc_macs kc_key kc_done].
        match goal with D : kc_derive _ _ _ _ _ = Ret _ |- _ => apply kc_derive_inv in D; destruct D as [_ D]; injection D as -> -> -> end.
        split; intros; eexists; (split; [reflexivity|apply kc_sess_length]).
      + match goal with D : kc_derive _ _ _ _ _ = Ret _ |- _ => apply kc_derive_inv in D; destruct D as [_ D]; injection D as -> -> -> end.
        match type of E with (if ?b then _ else _) = _ => destruct b end; injection E as <- _; cbn [kc_macs kc_key kc_done];
        split; intros; eexists; (split; [reflexivity|apply kc_sess_length]).
      + match type of E with (if ?b then _ else _) = _ => destruct b end; injection E as <- _; cbn [kc_macs kc_key kc_done].
        * split; [exact I1|]. intros _. destruct (kc_macs s) as [x|]; [exact (I1 x eq_refl)|]. match goal with U : unwrap None = Ret _ |- _ => discriminate U end.
        * split; assumption. }
  intro D. destruct (proj2 IV D) as [k [K L]]. exists k. cbn [KcSpakePake pk_fin]. rewrite K. split; [reflexivity|lia].
Qed.
Lemma sig_dh_starts : forall P mpk cert usk, starts (IdSigDh P) mpk cert usk.
Proof.
  intros P mpk cert usk r ssid r1 os. cbn [IdSigDh ik_run ik_new fst]. unfold sd_run. cbn [sd_step sd_new fst first_step].
  destruct (draw 32 os). eexists _, _, _. reflexivity.
Qed.
Lemma hmqv_starts : forall P G mpk cert usk, starts (IdHmqvC P G) mpk cert usk.
Proof.
  intros P G mpk cert usk r ssid r1 os. cbn [IdHmqvC ik_run ik_new fst]. unfold hm_run. cbn [hm_step hm_new fst first_step].
  destruct (hm_gen_user G r1) as [[a b] c]. eexists _, _, _. reflexivity.
Qed.
Lemma fg_starts : forall P G mpk cert usk, starts (FgIbkeC P G) mpk cert usk.
Proof.
  intros P G mpk cert usk r ssid r1 os. cbn [FgIbkeC ik_run ik_new fst]. unfold fg_run. cbn [fg_step fg_new fst first_step].
  destruct (s_random G r1) as [a b]. eexists _, _, _. reflexivity.
Qed.
Lemma sigma_starts : forall P h ty mpk cert usk, starts (IdSigmaR ty P h) mpk cert usk.
Proof.
  intros P h ty mpk cert usk r ssid r1 os. cbn [IdSigmaR ik_run ik_new fst]. unfold sm_run, sm_new. destruct (draw 32 r) as [n r2].
  cbn [sm_step fst first_step List.length Nat.eqb assert_]. destruct (keygen_ind_cpa h LightSaber os) as [[a b] c]. cbn.
  eexists _, _, _. reflexivity.
Qed.

(** ** LATKE over CAKE: the bytes that crash the PAKE phase *)
Lemma cake_never_errs : forall P h s os m s' e, pk_run (CakePake P h) s os m <> Ret (s', Err e).
Proof.
  intros P h s os m s' e R. cbn [CakePake pk_run] in R. unfold cake_run in R. destruct (ck_step s) as [|[|[|n]]]; obi R; discriminate R.
Qed.
Lemma succeeded_oks : forall M (x : calls), succeeded (oks x : log M) = List.length x.
Proof. intros M x. induction x as [|p x IH]; [reflexivity|]. cbn [oks map succeeded List.length]. f_equal. exact IH. Qed.
Lemma merges_length : forall rl x xp xe, merges rl x xp xe -> (List.length xp <= List.length x)%nat.
Proof.
  intros rl x xp xe [[-> _]|[_ [m [o [xp' [xe' [-> [-> ->]]]]]]]]; rewrite !app_length; cbn [List.length]; lia.
Qed.
Lemma cake_done_step : forall P h r ssid pw rl s0 r' l s, pk_new (CakePake P h) r ssid pw rl = Ret (s0, r') ->
  hist (pake_machine (CakePake P h)) s0 l s -> (pk_done (CakePake P h) s = true <-> (3 <= next_step rl l)%nat).
Proof.
  intros P h r ssid pw rl s0 r' l s N H.
  assert (ST : ck_step s = next_step rl l).
  { apply (step_of_log (pake_machine (CakePake P h)) ck_step rl s0 (cake_steps P h r ssid pw rl s0 r' N)); [|exact H].
    cbn in N. injection N as <- _. reflexivity. }
  rewrite <- ST. clear ST. induction H as [|l s rr m s' o H IH E].
  - cbn in N. injection N as <- _. cbn. destruct rl; cbn; split; intro Q; (discriminate Q || lia).
  - cbn [pake_machine CakePake m_run pk_run m_st PST pk_done] in *. unfold cake_run in E.
    destruct (ck_step s) as [|[|[|n]]] eqn:ES; obi E; injection E as <- _; cbn [ck_done ck_step]; rewrite ?IH; split; intro Q; (reflexivity || lia).
Qed.
Theorem latke_cake_phase_panics_iff : forall P I h r ssid pf rl peer s0 r' l s r1 os m,
  (rl = Initiator -> starts I (pf_mpk pf) (pf_cert pf) (pf_usk pf)) ->
  latke_new I (CakePake P h) r ssid pf rl peer = Ret (s0, r') ->
  hist (latke_machine P I (CakePake P h)) s0 l s ->
  (next_step rl l < 3)%nat ->
  (latke_run P I (CakePake P h) s r1 os m = Panic <-> cake_bad (next_step rl l) m).
Proof.
  intros P I h r ssid pf rl peer s0 r' l s r1 os m ST N H LT.
  destruct (latke_run_panics_iff P I (CakePake P h) r ssid pf rl peer s0 r' l s (cake_silent P h) (cake_hands_over P h) ST N H)
    as [x [p0 [xp [p [-> [PN [HP C]]]]]]].
  unfold next_step in LT |- *. rewrite succeeded_oks in LT |- *.
  pose proof (cake_done_step _ _ _ _ _ _ _ _ _ _ PN HP) as D. unfold next_step in D. rewrite succeeded_oks in D.
  destruct (pk_done (CakePake P h) p) eqn:DP.
  - exfalso. destruct C as [k [xe [y [_ [MG _]]]]]. apply merges_length in MG. destruct D as [D _]. specialize (D eq_refl). lia.
  - destruct C as [-> C]. rewrite C. pose proof (cake_run_panics_iff P h _ _ _ _ _ _ _ _ (os_pake os) m PN HP) as Q.
    unfold next_step in Q. rewrite succeeded_oks in Q. rewrite <- Q. clear Q.
    destruct (pk_run (CakePake P h) p (os_pake os) m) as [[p' [o|e]]|] eqn:RP.
    + split; [intro Q; destruct Q; eauto|discriminate].
    + destruct (cake_never_errs _ _ _ _ _ _ _ RP).
    + split; [reflexivity|]. intros _ [p' [o Q]]. discriminate Q.
Qed.
(** Such sessions exist: a responder that expects CAKE's first message. *)
Example latke_panics_meets : forall P h ty r ssid pf peer r1 os, exists s0 r',
  latke_new (IdSigmaR ty P h) (CakePake P h) r ssid pf Responder peer = Ret (s0, r') /\
  latke_run P (IdSigmaR ty P h) (CakePake P h) s0 r1 os (repeat 0 671) = Panic /\
  latke_run P (IdSigmaR ty P h) (CakePake P h) s0 r1 os (repeat 0 672) <> Panic.
Proof.
  intros P h ty r ssid pf peer r1 os.
  assert (exists s0 r', latke_new (IdSigmaR ty P h) (CakePake P h) r ssid pf Responder peer = Ret (s0, r')) as [s0 [r' N]] by (eexists _, _; reflexivity).
  exists s0, r'. split; [exact N|].
  assert (Q := fun m => latke_cake_phase_panics_iff P (IdSigmaR ty P h) h r ssid pf Responder peer s0 r' [] s0 r1 os m (fun E => match E in _ = x return match x with Responder => True | Initiator => _ end with eq_refl => Logic.I end) N (hist_init _ _) ltac:(cbn; lia)).
  cbn [next_step first_step succeeded Nat.mul Nat.add cake_bad] in Q. rewrite !Q, !repeat_length. split; [discriminate|]. intro X. apply X. reflexivity.
Qed.

(* ------------------------------------------------------------------ *)
(** ** CHIP over CAKE *)
(** The responder's first message is not looked at until the second call: that call panics if
    the first message was not the encoding of two points.  The initiator panics on such a
    message at once; after that, the messages that crash CAKE crash CHIP. *)
Definition hello_bad (G : group) (m : bytes) : Prop := forall X R, m <> chip_hello G X R.
Definition chip_cake_bad (G : group) {M : machine} (l : log M) (step : nat) (m : bytes) : Prop :=
  match step with
  | 0 | 1 => False
  | 2 => hello_bad G m
  | 3 => hello_bad G (hd [] (map fst l)) \/ cake_bad 1 m
  | S (S n) => cake_bad n m
  end%nat.
Lemma succeeded_errs : forall M (l : log M), Forall is_err l -> succeeded l = 0%nat.
Proof. intros M l H. induction H as [|[m [o|e]] l [e' E] H IH]; [reflexivity|discriminate E|exact IH]. Qed.
Lemma succeeded_cons : forall M m (o : option bytes) (l : log M), succeeded (((m, Ok o) : bytes * res (option bytes) (m_err M)) :: l) = S (succeeded l).
Proof. reflexivity. Qed.
Lemma succeeded_same : forall P G K (l : list (bytes * res (option bytes) (PERR K))),
  @succeeded (chip_machine P G K) l = @succeeded (pake_machine K) l.
Proof. intros P G K l. induction l as [|[m [o|e]] l IH]; [reflexivity| |exact IH]. cbn [succeeded]. f_equal. exact IH. Qed.
Lemma chip_run_pake_panic : forall P G K a b c d x p sn rc k r os m,
  chip_run P G K (Chip a b c d x (Some p) sn rc (4 + k)) r os m = Panic <-> pk_run K p os m = Panic.
Proof.
  intros. change (chip_run P G K (Chip a b c d x (Some p) sn rc (4 + k)) r os m) with
    (let! (p', o) := pk_run K p os m in
     match o with Ok out => Ret (Chip a b c d x (Some p') sn rc (4 + (k + 2)), Ok out)
                | Err e => Ret (Chip a b c d x (Some p') sn rc (4 + k), @Err (option bytes) _ e) end).
  destruct (pk_run K p os m) as [[p' [out|e]]|]; cbn [obind]; split; intro Y; (discriminate Y || reflexivity).
Qed.
Lemma chip_start_panic : forall P G h s r os rl w m, 
  (chip_start G (CakePake P h) s r os rl w m = Panic <-> cake_bad (first_step rl) m).
Proof.
  intros P G h s r os rl w m. unfold chip_start.
  destruct (pk_new (CakePake P h) r (ch_ssid s) w rl) as [[p0 r']|] eqn:N; [|discriminate N]. cbn [obind].
  pose proof (cake_run_panics_iff P h _ _ _ _ _ _ [] p0 os m N (hist_init _ _)) as Q. unfold next_step in Q. cbn [succeeded Nat.mul] in Q. rewrite Nat.add_0_r in Q.
  rewrite <- Q. destruct (pk_run (CakePake P h) p0 os m) as [[p' [o|e]]|]; cbn [obind]; split; intro X; (discriminate X || reflexivity).
Qed.
Lemma chip_step_2_panic : forall P G K, group_laws G -> forall s m, chip_step_2 P G K s m = Panic <-> hello_bad G m.
Proof.
  intros P G K GL s m. destruct (chip_step_2 P G K s m) as [[s' w]|] eqn:E.
  - split; [discriminate|]. intro Q. destruct (chip_step_2_inv _ _ _ _ _ _ _ GL E) as [X [R EM]]. destruct (Q X R EM).
  - split; [|reflexivity]. intros _ X R ->. rewrite chip_step_2_ok in E by exact GL. discriminate E.
Qed.
Theorem chip_cake_run_panics_iff : forall P G h, group_laws G -> forall r0 ssid pf rl other l s r os m,
  hist (chip_machine P G (CakePake P h)) (fst (chip_new G (CakePake P h) r0 ssid pf rl other)) l s ->
  (chip_run P G (CakePake P h) s r os m = Panic <-> chip_cake_bad G l (next_step rl l) m).
Proof.
  intros P G h GL r0 ssid pf rl other l s r os m H.
  assert (ST : ch_step s = next_step rl l).
  { apply (step_of_log (chip_machine P G (CakePake P h)) ch_step rl _ (chip_steps P G (CakePake P h) r0 ssid pf rl other)); [|exact H].
    unfold chip_new. destruct (s_random G r0). reflexivity. }
  destruct rl.
  - apply (chip_initiator_phases P G (CakePake P h) GL) in H.
    destruct H as [[-> ->] | [[a [x [errs [-> [FE ->]]]]] | [a [x [errs [m2 [X [R [o [rest [rn [p0 [r' [p [k [-> [FE [_ [N [HP ->]]]]]]]]]]]]]]]]]]]].
    + unfold chip_new. destruct (s_random G r0) as [z rz]. unfold chip_run. cbn [fst ch_step first_step]. unfold chip_step_1. destruct (s_random G r). split; [discriminate|intros []].
    + rewrite <- ST. cbn [ch_step chip_cake_bad]. unfold chip_run. cbn [ch_step].
      rewrite <- (chip_step_2_panic P G (CakePake P h) GL (chip_push G (CakePake P h) (Chip pf ssid other Initiator x None [chip_hello G (cp_X pf) (g_base G x)] (chip_dups P G (CakePake P h) errs) 2) m) m).
      destruct (chip_step_2 P G (CakePake P h) _ m) as [[s1 w]|]; cbn [obind]; [|tauto].
      rewrite chip_start_panic. cbn [cake_bad first_step]. split; [congruence|discriminate].
    + pose proof (cake_run_panics_iff P h _ _ _ _ _ _ _ _ os m N HP) as Q.
      assert (NS : next_step Initiator (((a, Ok (Some (chip_hello G (cp_X pf) (g_base G x)))) :: errs ++ (m2, Ok o) :: rest) : log (chip_machine P G (CakePake P h))) =
                   (2 + next_step Initiator ((([], Ok o) :: rest) : log (pake_machine (CakePake P h))))%nat).
      { unfold next_step. rewrite !succeeded_cons, succeeded_app, succeeded_errs by exact FE. repeat rewrite succeeded_cons. cbn [first_step succeeded].
        rewrite succeeded_same. lia. }
      rewrite NS in ST |- *. cbn [ch_step] in ST.
      rewrite chip_run_pake_panic.
      destruct (next_step Initiator _) as [|[|n]]; [lia|lia|]. cbn [Nat.add chip_cake_bad]. exact Q.
  - apply (chip_responder_phases P G (CakePake P h) GL) in H.
    destruct H as [[-> ->] | [[m1 [x [errs [-> [FE ->]]]]] | [m1 [x [errs [m2 [X [R [o [rest [rn [p0 [r' [p [k [-> [FE [_ [N [HP ->]]]]]]]]]]]]]]]]]]]].
    + unfold chip_new. destruct (s_random G r0) as [z rz]. unfold chip_run. cbn [fst ch_step first_step]. unfold chip_step_1. destruct (s_random G r). split; [discriminate|intros []].
    + rewrite <- ST. cbn [ch_step chip_cake_bad map fst hd]. unfold chip_run. cbn [ch_step ch_recv]. rewrite rev_repeat_hd. cbn [unwrap obind].
      match goal with |- context [chip_step_2 P G (CakePake P h) ?s1 m1] => rewrite <- (chip_step_2_panic P G (CakePake P h) GL s1 m1); destruct (chip_step_2 P G (CakePake P h) s1 m1) as [[s2 w]|] end; cbn [obind]; [|tauto].
      rewrite chip_start_panic. cbn [first_step]. split; [auto|]. intros [Y|Y]; [discriminate Y|exact Y].
    + pose proof (cake_run_panics_iff P h _ _ _ _ _ _ _ _ os m N HP) as Q.
      assert (NS : next_step Responder (((m1, Ok (Some (chip_hello G (cp_X pf) (g_base G x)))) :: errs ++ (m2, Ok o) :: rest) : log (chip_machine P G (CakePake P h))) =
                   (2 + next_step Responder (((m2, Ok o) :: rest) : log (pake_machine (CakePake P h))))%nat).
      { unfold next_step. rewrite !succeeded_cons, succeeded_app, succeeded_errs by exact FE. repeat rewrite succeeded_cons. cbn [first_step succeeded].
        rewrite succeeded_same. lia. }
      rewrite NS in ST |- *. cbn [ch_step] in ST.
      rewrite chip_run_pake_panic.
      destruct (next_step Responder _) as [|[|n]]; [lia|lia|]. cbn [Nat.add chip_cake_bad]. exact Q.
Qed.
(** A responder whose first call was fed garbage returns from it, and panics on its second call
    whatever arrives. *)
Example chip_panics_meets : forall P h r0 ssid pf other r os m, exists l s, let K := CakePake P h in
  hist (chip_machine P toy_group K) (fst (chip_new toy_group K r0 ssid pf Responder other)) l s /\ List.length l = 1%nat /\
  chip_run P toy_group K s r os m = Panic.
Proof.
  intros P h r0 ssid pf other r os m.
  destruct (chip_run P toy_group (CakePake P h) (fst (chip_new toy_group (CakePake P h) r0 ssid pf Responder other)) r os [1]) as [[s o]|] eqn:E.
  2:{ apply (chip_cake_run_panics_iff P toy_group h toy_group_laws r0 ssid pf Responder other []) in E; [destruct E|constructor]. }
  assert (H : hist (chip_machine P toy_group (CakePake P h)) (fst (chip_new toy_group (CakePake P h) r0 ssid pf Responder other)) ([] ++ [([1], o)]) s).
  { eapply (hist_run (chip_machine P toy_group (CakePake P h)) _ [] _ (r, os)); [constructor|exact E]. }
  exists ([] ++ [([1], o)]), s. split; [exact H|]. split; [reflexivity|].
  destruct o as [o|e].
  - apply (chip_cake_run_panics_iff P toy_group h toy_group_laws r0 ssid pf Responder other _ s r os m H). left. cbn [hd map fst app].
    intros X R Q. apply (f_equal (@List.length Z)) in Q. unfold chip_hello in Q. rewrite app_length in Q.
    unfold compress in Q. rewrite !bytes_of_length in Q. discriminate Q.
  - exfalso. unfold chip_new in E. destruct (s_random toy_group r0) as [z rz]. unfold chip_run in E. cbn [fst ch_step first_step] in E.
    unfold chip_step_1 in E. destruct (s_random toy_group r). discriminate E.
Qed.
