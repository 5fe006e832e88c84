(** * PropsLatke2: LATKE with the shipped PAKEs and IBKEs (C32, C33, C35). *)
From Coq Require Import ZArith List Lia Bool String.
From Verif Require Import Base Crypto Symmetric Driver SaberKem PropsSaber Pakes PropsPake PropsSym Ibkes IbkeSpec PropsSigDh PropsHmqv PropsFg PropsSigma IbkeToy
  Eue PropsEue Latke LatkeSim LatkeHist PropsLatke.
Import ListNotations.
Open Scope Z_scope.

(** ** The shipped PAKEs are correct and finish when they have nothing to send *)
Definition kem_ok_os (h : saber_prims) (os : nat -> rng) : Prop := kem_ok h (os 0%nat) (os 1%nat).
Lemma cake_pake_correct : forall P h, pake_correct (CakePake P h) 2 (fun _ _ => kem_ok_os h).
Proof.
  intros P h ssid pw rI rR tape OK. unfold kem_ok_os in OK.
  destruct (cake_run_completes P h ssid pw rI rR tape _ _ _ _ eq_refl eq_refl) as [m1 [m2 [sI [sR [k [R [_ [_ [D1 [D2 [F2 [F1 E]]]]]]]]]]]].
  apply (proj2 E) in OK. subst k. clear E.
  do 4 eexists. exists [m1; m2], sI, sR, (bytes_at (snd (tape 1%nat)) 0 32).
  split; [reflexivity|]. split; [reflexivity|]. split; [exact R|]. split; [reflexivity|]. split; [exact D1|]. split; [exact D2|].
  split; [exact F1|]. split; [exact F2|]. apply bytes_at_ok.
Qed.
Lemma kc_spake2_pake_correct : forall P S, spake_correct S -> pake_correct (KcSpakePake P S) 3 (fun _ _ _ => True).
Proof.
  intros P S C ssid pw rI rR tape _.
  destruct (pk_new (KcSpakePake P S) rI ssid pw Initiator) as [[sI rI']|] eqn:NI.
  2:{ exfalso. cbn [KcSpakePake pk_new] in NI. unfold kc_new in NI. destruct (sp_start S pw ssid rI) as [[a b] c]. discriminate NI. }
  destruct (pk_new (KcSpakePake P S) rR ssid pw Responder) as [[sR rR']|] eqn:NR.
  2:{ exfalso. cbn [KcSpakePake pk_new] in NR. unfold kc_new in NR. destruct (sp_start S pw ssid rR) as [[a b] c]. discriminate NR. }
  destruct (kc_spake2_agreement P S ssid pw rI rR tape _ _ _ _ C NI NR) as [m1 [m2 [m3 [fI [fR [k [R [D1 [D2 [F1 [F2 L]]]]]]]]]]].
  exists sI, rI', sR, rR', [m1; m2; m3], fI, fR, k. repeat (split; [first [reflexivity|assumption]|]). exact L.
Qed.
(** CPace needs its two calls to succeed. *)
Definition cpace_ok (C : cpace_crate) (ssid pw : bytes) (os : nat -> rng) : Prop := exists st kp,
  cp_step1 C (b64_encode pw) (str "latke_cpace_initiator") (str "latke_cpace_responder") ssid (os 0%nat) = Some st /\
  cp_step2 C (cpace_packet1 C st) (b64_encode pw) (str "latke_cpace_initiator") (str "latke_cpace_responder") ssid (os 1%nat) = Some kp.
Lemma cpace_pake_correct : forall C, cpace_correct C -> pake_correct (CpacePake C) 2 (cpace_ok C).
Proof.
  intros C CC ssid pw rI rR tape [st [kp [S1 S2]]].
  destruct (cpace_agreement C ssid pw rI rR tape _ _ _ _ st kp CC eq_refl eq_refl S1 S2) as [m1 [m2 [fI [fR [k [R [_ [_ [D1 [D2 [F1 [F2 L]]]]]]]]]]]].
  do 4 eexists. exists [m1; m2], fI, fR, k. split; [reflexivity|]. split; [reflexivity|]. repeat (split; [first [reflexivity|assumption]|]). exact L.
Qed.
Local Opaque keygen_ind_cpa encapsulate_ind_cpa decapsulate_ind_cpa ideal_cipher_encrypt ideal_cipher_decrypt ciphertext_from_bytes
  indcpa_pk_from_bytes INDCPA_PUBLICKEYBYTES pk_to_bytes.
Lemma cake_silent : forall P h, silent_when_done (CakePake P h).
Proof.
  intros P h s os m s' H. cbn [CakePake pk_run pk_done] in *. unfold cake_run in H.
  destruct (ck_step s) as [|[|[|n]]]; obi H; try discriminate H.
  apply (f_equal (fun x => match x with Ret (a, _) => ck_done a | Panic => true end)) in H. symmetry. exact H.
Qed.
Lemma cpace_silent : forall C, silent_when_done (CpacePake C).
Proof.
  intros C s os m s' H. cbn [CpacePake pk_run pk_done] in *. unfold cpace_run in H.
  destruct (cp_step s) as [|[|[|n]]]; obi H; try discriminate H; inversion H. reflexivity.
Qed.
Lemma kc_spake2_silent : forall P S, silent_when_done (KcSpakePake P S).
Proof.
  intros P S s os m s' H. cbn [KcSpakePake pk_run pk_done] in *. unfold kc_run in H.
  destruct (kc_step s) as [|[|[|[|n]]]]; obi H; try discriminate H.
  - destruct (beq _ _) in H; inversion H.
  - destruct (beq _ _) in H; inversion H. reflexivity.
Qed.

(** ** The shipped IBKEs are correct *)
Lemma sig_dh_ibke_correct : forall P, sig_correct P Ed25519 -> dh_commutes P -> ibke_correct (IdSigDh P) 2 (fun _ => True).
Proof.
  intros P C D. split; [apply sig_dh_agreement; assumption|]. intros rm mpk msk rm' id cert usk GM L E.
  destruct (sd_enrolled P rm mpk msk rm' id cert usk C GM L E) as [_ [X _]]. exact X.
Qed.
Lemma hmqv_ibke_correct : forall P G, sig_correct P Ed25519 -> group_laws G -> ibke_correct (IdHmqvC P G) 3 (fun _ => True).
Proof.
  intros P G C D. split; [apply hmqv_agreement; assumption|]. intros rm mpk msk rm' id cert usk GM L E.
  destruct (hm_enrolled P G rm mpk msk rm' id cert usk C GM L E) as [_ [X _]]. exact X.
Qed.
Lemma fg_ibke_correct : forall P G, group_laws G -> ibke_correct (FgIbkeC P G) 3 (fun _ => True).
Proof.
  intros P G D. split; [apply fg_ibke_agreement; assumption|]. intros rm mpk msk rm' id cert usk GM L E.
  destruct (fg_enrolled P G rm mpk msk rm' id cert usk GM E) as [_ [x ->]]. reflexivity.
Qed.
Lemma sigma_ibke_correct : forall ty P h, sig_correct P ty -> ibke_correct (IdSigmaR ty P h) 4 (kem_ok_os h).
Proof.
  intros ty P h C. split; [exact (sigma_agreement ty P h C)|]. intros rm mpk msk rm' id cert usk GM L E.
  destruct (sm_enrolled ty P h rm mpk msk rm' id cert usk GM L E) as [_ [_ [X _]]]. exact X.
Qed.

(** ** C32 for the pairs of the test suite (latke.rs 201-208) *)
(** The conclusion of latke_agreement, for all passwords, ids, peer models and randomness, in
    [steps] calls of run, the last of which may be followed by checks of is_done only. *)
Definition latke_agrees (P : prims) (I : ibke) (K : pake) (steps : nat) (ok : (nat -> rng) -> Prop) : Prop :=
  forall pw idI idR rgI rgR ssid peerI peerR rI rR tape,
  List.length idI = 32%nat -> List.length idR = 32%nat -> peers_match idI idR peerI peerR ->
  ok (fun j => snd (tape j)) ->
  exists sI rI' sR rR' outs fI fR key,
    latke_new I K rI ssid (gen_pwfile P I rgI pw idI) Initiator peerI = Ret (sI, rI') /\
    latke_new I K rR ssid (gen_pwfile P I rgR pw idR) Responder peerR = Ret (sR, rR') /\
    honest_run (latke_machine P I K) (steps + 1) tape sI sR = Res Completed outs fI fR /\
    latke_done I K fI = true /\ latke_done I K fR = true /\
    latke_fin P I K fI = Ret (idR, key) /\ latke_fin P I K fR = Ret (idI, key) /\ List.length key = 32%nat.

Theorem latke_hmqv_kc_spake2 : forall P G S, sig_correct P Ed25519 -> group_laws G -> spake_correct S ->
  latke_agrees P (IdHmqvC P G) (KcSpakePake P S) 8 (fun _ => True).
Proof.
  intros P G S CS CG CK pw idI idR rgI rgR ssid peerI peerR rI rR tape LI LR PM _.
  exact (latke_agreement P _ _ 3 3 _ _ pw idI idR rgI rgR ssid peerI peerR rI rR tape
    (kc_spake2_pake_correct P S CK) (hmqv_ibke_correct P G CS CG) ltac:(lia) LI LR PM Logic.I Logic.I).
Qed.
Theorem latke_sig_dh_kc_spake2 : forall P S, sig_correct P Ed25519 -> dh_commutes P -> spake_correct S ->
  latke_agrees P (IdSigDh P) (KcSpakePake P S) 7 (fun _ => True).
Proof.
  intros P S CS CG CK pw idI idR rgI rgR ssid peerI peerR rI rR tape LI LR PM _.
  exact (latke_agreement P _ _ 3 2 _ _ pw idI idR rgI rgR ssid peerI peerR rI rR tape
    (kc_spake2_pake_correct P S CK) (sig_dh_ibke_correct P CS CG) ltac:(lia) LI LR PM Logic.I Logic.I).
Qed.
Theorem latke_fg_kc_spake2 : forall P G S, group_laws G -> spake_correct S ->
  latke_agrees P (FgIbkeC P G) (KcSpakePake P S) 8 (fun _ => True).
Proof.
  intros P G S CG CK pw idI idR rgI rgR ssid peerI peerR rI rR tape LI LR PM _.
  exact (latke_agreement P _ _ 3 3 _ _ pw idI idR rgI rgR ssid peerI peerR rI rR tape
    (kc_spake2_pake_correct P S CK) (fg_ibke_correct P G CG) ltac:(lia) LI LR PM Logic.I Logic.I).
Qed.
(** Post-quantum LATKE needs LightSaber to decrypt twice: in CAKE (calls 0 and 1) and in
    ID-SIGMA-R (calls 2 and 3); see C05 and C08 for when it does. *)
Definition latke_kem_ok (h : saber_prims) (os : nat -> rng) : Prop :=
  kem_ok h (os_pake (os 0%nat)) (os_pake (os 1%nat)) /\ kem_ok h (os_ibke (os 2%nat)) (os_ibke (os 3%nat)).
Theorem latke_sigma_cake : forall P h ty, sig_correct P ty ->
  latke_agrees P (IdSigmaR ty P h) (CakePake P h) 7 (latke_kem_ok h).
Proof.
  intros P h ty CS pw idI idR rgI rgR ssid peerI peerR rI rR tape LI LR PM [O1 O2].
  exact (latke_agreement P _ _ 2 4 _ _ pw idI idR rgI rgR ssid peerI peerR rI rR tape
    (cake_pake_correct P h) (sigma_ibke_correct ty P h CS) ltac:(lia) LI LR PM O1 O2).
Qed.

(** The hypotheses are met: the toy primitives satisfy all the laws, and for every pair of
    independent sources there is a source that splits into them. *)
Definition join (a b : rng) : rng := fun i => if Nat.even i then a (Nat.div2 i) else b (Nat.div2 i).
Lemma join_pake : forall a b i, os_pake (join a b) i = a i.
Proof. intros. unfold os_pake, join. rewrite Nat.even_mul. cbn [Nat.even orb]. rewrite Nat.div2_double. reflexivity. Qed.
Lemma join_ibke : forall a b i, os_ibke (join a b) i = b i.
Proof.
  intros. unfold os_ibke, join. replace (2 * i + 1)%nat with (S (2 * i)) by lia. rewrite Nat.even_succ, <- Nat.negb_even, Nat.even_mul. cbn [Nat.even orb negb].
  rewrite Nat.div2_succ_double. reflexivity.
Qed.
Example latke_meets : spake_correct toy_spake /\ sig_correct toy_prims Ed25519 /\ sig_correct toy_prims Dilithium2 /\
  dh_commutes toy_prims /\ group_laws toy_group /\
  (forall a b, exists os, forall i, os_pake os i = a i /\ os_ibke os i = b i).
Proof.
  split; [exact toy_spake_correct|]. split; [apply toy_sig_correct|]. split; [apply toy_sig_correct|]. split; [exact toy_dh_commutes|].
  split; [exact toy_group_laws|]. intros a b. exists (join a b). intro i. split; [apply join_pake|apply join_ibke].
Qed.

(** ** C33 for the shipped IBKEs: the certificate verifies under the main key *)
Theorem pwfile_sig_dh : forall P pw r id, sig_correct P Ed25519 -> List.length id = 32%nat ->
  let pf := gen_pwfile P (IdSigDh P) r pw id in
  sdc_id (pf_cert pf) = id /\ sd_cert_valid P (pf_mpk pf) (pf_cert pf) = true.
Proof.
  intros P pw r id C L pf. destruct (pwfile_enrolled P (IdSigDh P) pw) as [mpk [msk [rm' [GM H]]]]. destruct (H r id) as [E1 E2].
  fold pf in E1, E2. rewrite E1. destruct (sd_enrolled P _ _ _ _ id _ _ C GM L E2) as [_ [A [B _]]]. auto.
Qed.
Theorem pwfile_hmqv : forall P G pw r id, sig_correct P Ed25519 -> List.length id = 32%nat ->
  let pf := gen_pwfile P (IdHmqvC P G) r pw id in
  hmc_id (pf_cert pf) = id /\ hm_cert_valid P G (pf_mpk pf) (pf_cert pf) = true.
Proof.
  intros P G pw r id C L pf. destruct (pwfile_enrolled P (IdHmqvC P G) pw) as [mpk [msk [rm' [GM H]]]]. destruct (H r id) as [E1 E2].
  fold pf in E1, E2. rewrite E1. destruct (hm_enrolled P G _ _ _ _ id _ _ C GM L E2) as [_ [A [B _]]]. auto.
Qed.
Theorem pwfile_sigma : forall ty P h pw r id, sig_correct P ty -> List.length id = 32%nat ->
  let pf := gen_pwfile P (IdSigmaR ty P h) r pw id in
  smc_id (pf_cert pf) = id /\ sm_cert_valid P (pf_mpk pf) (pf_cert pf) = Ret true.
Proof.
  intros ty P h pw r id C L pf. destruct (pwfile_enrolled P (IdSigmaR ty P h) pw) as [mpk [msk [rm' [GM H]]]]. destruct (H r id) as [E1 E2].
  fold pf in E1, E2. rewrite E1. destruct (sm_enrolled ty P h _ _ _ _ id _ _ GM L E2) as [_ [_ [A [_ B]]]]. destruct (B C) as [_ [B' _]]. auto.
Qed.
(** FG-IBKE-C has no signature: the certificate is the solution of g^xhat = X * mpk^h(id, X). *)
Theorem pwfile_fg : forall P G pw r id, group_laws G ->
  let pf := gen_pwfile P (FgIbkeC P G) r pw id in
  fgc_id (pf_cert pf) = id /\ exists mp, pf_mpk pf = compress G mp /\
  g_base G (fgc_xhat (pf_cert pf)) = g_add G (fgc_X (pf_cert pf)) (g_mul G mp (s_wide G (hash512 P ([2] ++ id ++ compress G (fgc_X (pf_cert pf)))))).
Proof.
  intros P G pw r id L pf. destruct (pwfile_enrolled P (FgIbkeC P G) pw) as [mpk [msk [rm' [GM H]]]]. destruct (H r id) as [E1 E2].
  fold pf in E1, E2. destruct (fg_enrolled P G _ _ _ _ id _ _ GM E2) as [M [x X]]. rewrite E1, X. cbn [fgc_id fgc_xhat fgc_X].
  split; [reflexivity|]. exists (g_base G msk). split; [exact M|].
  rewrite (gl_base_mul G L), (gl_base_add G L), (gl_smul_comm G L msk). reflexivity.
Qed.

(** A source for which both decryptions succeed. *)
Lemma bytes_at_ext : forall a b o n, (forall i, a i = b i) -> bytes_at a o n = bytes_at b o n.
Proof. intros a b o n H. unfold bytes_at. apply map_ext. intro i. rewrite H. reflexivity. Qed.
Example latke_sigma_meets : exists h os, latke_kem_ok h os.
Proof.
  destruct cake_agreement_meets as [h [os0 [os1 N]]].
  exists h, (fun j => if Nat.even j then join os0 os0 else join os1 os1). unfold latke_kem_ok. cbn [Nat.even].
  split; apply kem_ok_of_noise.
  - rewrite !(bytes_at_ext (os_pake (join os0 os0)) os0) by (intro; apply join_pake).
    rewrite (bytes_at_ext (os_pake (join os1 os1)) os1) by (intro; apply join_pake). exact N.
  - rewrite !(bytes_at_ext (os_ibke (join os0 os0)) os0) by (intro; apply join_ibke).
    rewrite (bytes_at_ext (os_ibke (join os1 os1)) os1) by (intro; apply join_ibke). exact N.
Qed.

(* ---------------------------------------------------------------- C39 *)
(** ** What a completed LATKE session has authenticated *)
(** The message m reached the session inside the encrypted channel keyed by k. *)
Definition received {M : machine} (P : prims) (k ssid : bytes) (l : log M) (m : bytes) : Prop :=
  exists c o n, In (c, Ok o) l /\ auth_decrypt P (key_at P k ssid n) c = Ret (Ok m).
(** The session sent w inside that channel. *)
Definition sent {M : machine} (P : prims) (k ssid : bytes) (l : log M) (w : bytes) : Prop :=
  exists c r n, In (c, Ok (Some (fst (auth_encrypt P r (key_at P k ssid n) w)))) l.
Lemma in_oks : forall M (x : calls) c o, In (c, Ok o) (oks x : log M) <-> In (c, o) x.
Proof.
  intros M x c o. unfold oks. rewrite in_map_iff. split.
  - intros [[a b] [E I]]. cbn [fst snd] in E. injection E as -> ->. exact I.
  - intro I. exists (c, o). auto.
Qed.
Lemma opens_in : forall P k ssid rl xe xi m o, opens P k ssid rl xe xi -> In (m, o) xi ->
  exists i c w, In (c, w) xe /\ call_opens P k ssid rl i (c, w) (m, o).
Proof.
  intros P k ssid rl xe xi m o [L H] I. apply In_nth_error in I. destruct I as [i I].
  assert (X : (i < List.length xe)%nat) by (rewrite <- L; apply nth_error_Some; rewrite I; discriminate).
  destruct (nth_error xe i) as [[c w]|] eqn:E; [|apply nth_error_None in E; lia].
  exists i, c, w. split; [eapply nth_error_In; exact E|]. exact (H _ _ _ E I).
Qed.
Lemma merges_in : forall rl x xp xe c w, merges rl x xp xe -> In (c, w) xe -> exists c', In (c', w) x /\ (c = [] \/ c' = c).
Proof.
  intros rl x xp xe c w [[-> _] | [_ [m [o [xp' [xe' [-> [-> ->]]]]]]]] I.
  - exists c. split; [apply in_or_app; auto|auto].
  - destruct I as [E|I].
    + injection E as <- <-. exists m. split; [apply in_or_app; right; left; reflexivity|auto].
    + exists c. split; [apply in_or_app; right; right; exact I|auto].
Qed.
(** A completed session stands for a completed inner session whose messages all went through
    the channel keyed by the PAKE's key. *)
Theorem latke_done_inner : forall P I K r ssid pf rl peer s0 r' l s,
  silent_when_done K ->
  latke_new I K r ssid pf rl peer = Ret (s0, r') ->
  hist (latke_machine P I K) s0 l s -> latke_done I K s = true ->
  exists k ri li si,
    pk_done K (l_pake s) = true /\ pk_fin K (l_pake s) = Ret k /\
    hist (ibke_machine I) (fst (ik_new I ri ssid (pf_mpk pf) (pf_cert pf) (pf_usk pf) rl)) li si /\
    ik_done I si = true /\
    (forall m o, In (m, Ok o) li -> m <> [] -> received P k ssid l m) /\
    (forall m w, In (m, Ok (Some w)) li -> w <> [] -> sent P k ssid l w) /\
    (forall id ik, ik_fin I si = Ret (id, ik) -> exists key, latke_fin P I K s = Ret (id, key)).
Proof.
  intros P I K r ssid pf rl peer s0 r' l s SD N H D.
  destruct (latke_log_oks P I K l) as [x ->].
  destruct (latke_parts_hist P I K r ssid pf rl peer SD s0 r' x s N H) as [p0 [PN [[_ [_ [_ [xp [HP C]]]]] T]]].
  unfold latke_done in D. destruct C as [[LN _]|[k [ri [e0 [r2 [e [xe [PD [FK [LN [MG [EN HE]]]]]]]]]]]].
  { rewrite LN in D. discriminate D. }
  rewrite LN in D. unfold eue_done in D.
  destruct (eue_hist_at _ _ _ _ _ _ _ _ _ _ _ _ _ EN HE) as [xi [HI [OP _]]].
  exists k, ri, (oks xi), (e_sess e). split; [exact PD|]. split; [exact FK|]. split; [exact HI|]. split; [exact D|].
  split; [|split].
  - intros m o IN NE. apply in_oks in IN. destruct (opens_in _ _ _ _ _ _ _ _ OP IN) as [i [c [w [IE [FL _]]]]].
    destruct FL as [[E _]|[NC AD]]; [cbn [fst] in E; congruence|]. cbn [fst] in NC, AD.
    destruct (merges_in _ _ _ _ _ _ MG IE) as [c' [IX [E|E]]]; [congruence|]. subst c'.
    exists c, w, (recv_pos rl i). split; [apply in_oks; exact IX|exact AD].
  - intros m w IN NE. apply in_oks in IN. destruct (opens_in _ _ _ _ _ _ _ _ OP IN) as [i [c [w' [IE [_ W]]]]].
    cbn [snd] in W. destruct w as [|z w]; [congruence|]. cbn [wire] in W. destruct W as [rw ->].
    destruct (merges_in _ _ _ _ _ _ MG IE) as [c' [IX _]].
    exists c', rw, (send_pos rl i). apply in_oks. exact IX.
  - intros id ik F. unfold latke_fin. rewrite LN. cbn [unwrap obind]. unfold eue_fin. rewrite F. eexists. reflexivity.
Qed.

(** LATKE with ID-SIG-DH: the id a completed session outputs is certified under the main key,
    and its owner's key signed the ephemeral key and this ssid in the opposite role; the
    message came through the channel keyed by the PAKE's key. *)
Theorem latke_sig_dh_authenticates : forall P K r ssid pf rl peer s0 r' l s,
  silent_when_done K ->
  latke_new (IdSigDh P) K r ssid pf rl peer = Ret (s0, r') ->
  hist (latke_machine P (IdSigDh P) K) s0 l s -> latke_done (IdSigDh P) K s = true ->
  exists k m id key, pk_fin K (l_pake s) = Ret k /\ received P k ssid l m /\
    latke_fin P (IdSigDh P) K s = Ret (id, key) /\
    sd_authentic P (pf_mpk pf) ssid (match rl with Initiator => 1 | Responder => 0 end) m id.
Proof.
  intros P K r ssid pf rl peer s0 r' l s SD N H D.
  destruct (latke_done_inner P _ K r ssid pf rl peer s0 r' l s SD N H D) as [k [ri [li [si [_ [FK [HI [DI [RC [_ FI]]]]]]]]]].
  destruct (sig_dh_done_authentic P _ _ _ _ _ _ _ _ HI DI) as [m [o [id [ik [IN [FN AU]]]]]].
  destruct (FI _ _ FN) as [key LF]. exists k, m, id, key. split; [exact FK|]. split; [|split; [exact LF|exact AU]].
  apply (RC m o IN). intros ->. destruct AU as [eph [sg [pk [dh [cs [E [L _]]]]]]]. destruct eph; [discriminate L|discriminate E].
Qed.
(** LATKE with ID-HMQV-C, initiator. *)
Theorem latke_hmqv_initiator_authenticates : forall P G K r ssid pf peer s0 r' l s,
  silent_when_done K -> group_laws G ->
  latke_new (IdHmqvC P G) K r ssid pf Initiator peer = Ret (s0, r') ->
  hist (latke_machine P (IdHmqvC P G) K) s0 l s -> latke_done (IdHmqvC P G) K s = true ->
  exists k x m id ik key, pk_fin K (l_pake s) = Ret k /\
    sent P k ssid l (compress G (g_base G x) ++ hm_cert_to_bytes G (pf_cert pf)) /\ received P k ssid l m /\
    latke_fin P (IdHmqvC P G) K s = Ret (id, key) /\
    hm_confirms_I P G (pf_mpk pf) ssid (hmc_id (pf_cert pf)) (pf_usk pf) x m id ik.
Proof.
  intros P G K r ssid pf peer s0 r' l s SD GL N H D.
  destruct (latke_done_inner P _ K r ssid pf Initiator peer s0 r' l s SD N H D) as [k [ri [li [si [_ [FK [HI [DI [RC [SN FI]]]]]]]]]].
  destruct (hmqv_initiator_done_confirmed P G GL _ _ _ _ _ _ _ HI DI) as [x [m0 [m [o [id [ik [IN0 [IN [FN AU]]]]]]]]].
  destruct (FI _ _ FN) as [key LF]. exists k, x, m, id, ik, key. split; [exact FK|].
  assert (NE : forall p q, compress G p ++ q <> []).
  { intros p q E. apply (f_equal (@List.length Z)) in E. unfold compress in E. rewrite app_length, bytes_of_length in E. cbn in E. lia. }
  split; [apply (SN _ _ IN0), NE|]. split; [|split; [exact LF|exact AU]].
  apply (RC m o IN). destruct AU as [eph [upk [cb [-> _]]]]. apply NE.
Qed.
(** LATKE with ID-SIGMA-R, initiator (Dilithium2 or Ed25519). *)
Theorem latke_sigma_initiator_authenticates : forall P h K r ssid ty mk cert usk peer s0 r' l s,
  let I := IdSigmaR ty P h in let pf : pwfile I := @Pwfile I (ty, mk) cert usk in
  silent_when_done K ->
  latke_new I K r ssid pf Initiator peer = Ret (s0, r') ->
  hist (latke_machine P I K) s0 l s -> latke_done I K s = true ->
  exists k nA os kpk ksk ro nB ct m id key, pk_fin K (l_pake s) = Ret k /\
    keygen_ind_cpa h LightSaber os = (kpk, ksk, ro) /\
    sent P k ssid l (nA ++ pk_to_bytes kpk) /\ received P k ssid l (nB ++ ct) /\ received P k ssid l m /\
    let ss := decapsulate_ind_cpa LightSaber ct ksk in
    latke_fin P I K s = Ret (id, key) /\
    sm_authentic P (ty, mk) (sm_eb P ss) (sm_mk P ss) ([1] ++ nA ++ ssid ++ ct ++ pk_to_bytes kpk) 1 m id.
Proof.
  intros P h K r ssid ty mk cert usk peer s0 r' l s I pf SD N H D.
  destruct (latke_done_inner P I K r ssid pf Initiator peer s0 r' l s SD N H D) as [k [ri [li [si [_ [FK [HI [DI [RC [SN FI]]]]]]]]]].
  destruct (sigma_initiator_done_authentic P h ri ssid (ty, mk) cert usk li si HI DI) as [os [kpk [ksk [ro [nB [ct [o [m [id [KG [I0 [I1 [I2 [LB [FN AU]]]]]]]]]]]]]]].
  destruct (FI _ _ FN) as [key LF]. exists k, (fst (draw 32 ri)), os, kpk, ksk, ro, nB, ct, m, id, key.
  split; [exact FK|]. split; [exact KG|].
  split. { apply (SN _ _ I0). intro E. apply (f_equal (@List.length Z)) in E. rewrite app_length, draw_length in E. cbn in E. lia. }
  split. { apply (RC _ _ I1). intro E. apply (f_equal (@List.length Z)) in E. rewrite app_length, LB in E. cbn in E. lia. }
  split; [|split; [exact LF|exact AU]].
  apply (RC _ _ I2). intros ->. destruct AU as [sg [upk [cs [AD _]]]].
  assert (X : auth_decrypt P (sm_eb P (decapsulate_ind_cpa LightSaber ct ksk)) [] = Panic) by (apply auth_decrypt_panic; cbn; lia).
  rewrite X in AD. discriminate AD.
Qed.
(** The same for the responders, and for FG-IBKE-C. *)
Lemma compress_app_nonempty : forall G p q, compress G p ++ q <> [].
Proof. intros G p q E. apply (f_equal (@List.length Z)) in E. unfold compress in E. rewrite app_length, bytes_of_length in E. cbn in E. lia. Qed.
Lemma bytes32_app_nonempty : forall (a b : bytes), List.length a = 32%nat -> a ++ b <> [].
Proof. intros a b L E. destruct a; [discriminate L|discriminate E]. Qed.
Theorem latke_hmqv_responder_authenticates : forall P G K r ssid pf peer s0 r' l s,
  silent_when_done K -> group_laws G ->
  latke_new (IdHmqvC P G) K r ssid pf Responder peer = Ret (s0, r') ->
  hist (latke_machine P (IdHmqvC P G) K) s0 l s -> latke_done (IdHmqvC P G) K s = true ->
  exists k y m mac1 m' id ik key, pk_fin K (l_pake s) = Ret k /\
    received P k ssid l m /\ sent P k ssid l (compress G (g_base G y) ++ mac1 ++ hm_cert_to_bytes G (pf_cert pf)) /\ received P k ssid l m' /\
    latke_fin P (IdHmqvC P G) K s = Ret (id, key) /\
    hm_confirms_R P G (pf_mpk pf) ssid (hmc_id (pf_cert pf)) (pf_usk pf) y m m' id ik.
Proof.
  intros P G K r ssid pf peer s0 r' l s SD GL N H D.
  destruct (latke_done_inner P _ K r ssid pf Responder peer s0 r' l s SD N H D) as [k [ri [li [si [_ [FK [HI [DI [RC [SN FI]]]]]]]]]].
  destruct (hmqv_responder_done_confirmed P G GL _ _ _ _ _ _ _ HI DI) as [y [m [mac1 [m' [id [ik [IN0 [IN [FN AU]]]]]]]]].
  destruct (FI _ _ FN) as [key LF]. exists k, y, m, mac1, m', id, ik, key. split; [exact FK|].
  pose proof AU as [eph [upk [cb [EM [_ [EM' _]]]]]].
  split; [apply (RC _ _ IN0); rewrite EM; apply compress_app_nonempty|].
  split; [apply (SN _ _ IN0), compress_app_nonempty|]. split; [|split; [exact LF|exact AU]].
  apply (RC _ _ IN). rewrite EM'. intro E. apply (f_equal (@List.length Z)) in E. unfold hm_mac0 in E.
  rewrite expand_length in E. discriminate E.
Qed.
Theorem latke_fg_initiator_authenticates : forall P G K r ssid pf peer s0 r' l s,
  silent_when_done K -> group_laws G ->
  latke_new (FgIbkeC P G) K r ssid pf Initiator peer = Ret (s0, r') ->
  hist (latke_machine P (FgIbkeC P G) K) s0 l s -> latke_done (FgIbkeC P G) K s = true ->
  exists k x m id ik key, pk_fin K (l_pake s) = Ret k /\
    sent P k ssid l (fg_hello G (pf_cert pf) x) /\ received P k ssid l m /\
    latke_fin P (FgIbkeC P G) K s = Ret (id, key) /\
    fg_confirms_I P G (pf_mpk pf) x (fgc_xhat (pf_cert pf)) m id ik.
Proof.
  intros P G K r ssid pf peer s0 r' l s SD GL N H D.
  destruct (latke_done_inner P _ K r ssid pf Initiator peer s0 r' l s SD N H D) as [k [ri [li [si [_ [FK [HI [DI [RC [SN FI]]]]]]]]]].
  destruct (fg_initiator_done_confirmed P G GL _ _ _ _ _ _ _ HI DI) as [x [m0 [m [o [id [ik [IN0 [IN [FN AU]]]]]]]]].
  destruct (FI _ _ FN) as [key LF]. exists k, x, m, id, ik, key. split; [exact FK|].
  split. { apply (SN _ _ IN0). unfold fg_hello. intro E. apply app_eq_nil in E. destruct E as [_ E]. revert E. apply compress_app_nonempty. }
  split; [|split; [exact LF|exact AU]].
  apply (RC _ _ IN). destruct AU as [eph [X [mp [_ [L [-> _]]]]]]. apply bytes32_app_nonempty. exact L.
Qed.
Theorem latke_fg_responder_authenticates : forall P G K r ssid pf peer s0 r' l s,
  silent_when_done K -> group_laws G ->
  latke_new (FgIbkeC P G) K r ssid pf Responder peer = Ret (s0, r') ->
  hist (latke_machine P (FgIbkeC P G) K) s0 l s -> latke_done (FgIbkeC P G) K s = true ->
  exists k y m mac1 m' id ik key, pk_fin K (l_pake s) = Ret k /\
    received P k ssid l m /\ sent P k ssid l (fg_hello G (pf_cert pf) y ++ mac1) /\ received P k ssid l m' /\
    latke_fin P (FgIbkeC P G) K s = Ret (id, key) /\
    fg_confirms_R P G (pf_mpk pf) y (fgc_xhat (pf_cert pf)) m m' id ik.
Proof.
  intros P G K r ssid pf peer s0 r' l s SD GL N H D.
  destruct (latke_done_inner P _ K r ssid pf Responder peer s0 r' l s SD N H D) as [k [ri [li [si [_ [FK [HI [DI [RC [SN FI]]]]]]]]]].
  destruct (fg_responder_done_confirmed P G GL _ _ _ _ _ _ _ HI DI) as [y [m [mac1 [m' [id [ik [IN0 [IN [FN AU]]]]]]]]].
  destruct (FI _ _ FN) as [key LF]. exists k, y, m, mac1, m', id, ik, key. split; [exact FK|].
  pose proof AU as [eph [X [mp [_ [L [EM [EM' _]]]]]]].
  split; [apply (RC _ _ IN0); rewrite EM; apply bytes32_app_nonempty; exact L|].
  split. { apply (SN _ _ IN0). unfold fg_hello. intro E. apply app_eq_nil in E. destruct E as [E _]. apply app_eq_nil in E. destruct E as [_ E]. revert E. apply compress_app_nonempty. }
  split; [|split; [exact LF|exact AU]].
  apply (RC _ _ IN). rewrite EM'. intro E. apply (f_equal (@List.length Z)) in E. destruct (fg_mac_lengths P G (fg_alpha G y eph) (fg_beta P G mp y (fgc_xhat (pf_cert pf)) eph id X)) as [L0 _].
  rewrite L0 in E. discriminate E.
Qed.
Theorem latke_sigma_responder_authenticates : forall P h K r ssid ty mk cert usk peer s0 r' l s,
  let I := IdSigmaR ty P h in let pf : pwfile I := @Pwfile I (ty, mk) cert usk in
  silent_when_done K ->
  latke_new I K r ssid pf Responder peer = Ret (s0, r') ->
  hist (latke_machine P I K) s0 l s -> latke_done I K s = true ->
  exists k nB os kpk nA pkb ss ct ro m id key, pk_fin K (l_pake s) = Ret k /\
    indcpa_pk_from_bytes LightSaber pkb = Ret kpk /\ encapsulate_ind_cpa h LightSaber os kpk = (ss, ct, ro) /\
    received P k ssid l (nA ++ pkb) /\ sent P k ssid l (nB ++ ct) /\ received P k ssid l m /\
    latke_fin P I K s = Ret (id, key) /\
    sm_authentic P (ty, mk) (sm_ea P ss) (sm_mk P ss) ([0] ++ nB ++ ssid ++ pk_to_bytes kpk ++ ct) 0 m id.
Proof.
  intros P h K r ssid ty mk cert usk peer s0 r' l s I pf SD N H D.
  destruct (latke_done_inner P I K r ssid pf Responder peer s0 r' l s SD N H D) as [k [ri [li [si [_ [FK [HI [DI [RC [SN FI]]]]]]]]]].
  destruct (sigma_responder_done_authentic P h ri ssid (ty, mk) cert usk li si HI DI) as [os [kpk [nA [pkb [ss [ct [ro [m [o [id [PB [EC [I1 [I2 [LA [FN AU]]]]]]]]]]]]]]]].
  destruct (FI _ _ FN) as [key LF]. exists k, (fst (draw 32 ri)), os, kpk, nA, pkb, ss, ct, ro, m, id, key.
  split; [exact FK|]. split; [exact PB|]. split; [exact EC|].
  split. { apply (RC _ _ I1). apply bytes32_app_nonempty. exact LA. }
  split. { apply (SN _ _ I1). apply bytes32_app_nonempty. apply draw_length. }
  split; [|split; [exact LF|exact AU]].
  apply (RC _ _ I2). intros ->. destruct AU as [sg [upk [cs [AD _]]]].
  assert (X : auth_decrypt P (sm_ea P ss) [] = Panic) by (apply auth_decrypt_panic; cbn; lia).
  rewrite X in AD. discriminate AD.
Qed.
(** The hypotheses are met: the shipped PAKEs finish when silent, and an honest run ends done
    (latke_hmqv_kc_spake2 and the others), so such histories exist. *)
Example latke_done_meets : forall P S h C, silent_when_done (KcSpakePake P S) /\ silent_when_done (CakePake P h) /\ silent_when_done (CpacePake C).
Proof. intros. split; [apply kc_spake2_silent|]. split; [apply cake_silent|apply cpace_silent]. Qed.
