(** * LatkeHist: what an arbitrary peer can make of one EUE or LATKE session. *)
From Coq Require Import ZArith List Lia Bool String.
From Verif Require Import Base Crypto Symmetric Driver Pakes Eue PropsEue Latke PropsFg.
Import ListNotations.
Open Scope Z_scope.

(** The calls of a session none of which returned an error: message in, message out. *)
Definition calls := list (bytes * option bytes).
Definition oks {M : machine} (x : calls) : log M := map (fun p => (fst p, Ok (snd p))) x.
Lemma oks_app : forall M (a b : calls), @oks M (a ++ b) = oks a ++ oks b.
Proof. intros. apply map_app. Qed.
Lemma hist_snoc_inv : forall M s0 (l : log M) m o s, hist M s0 (l ++ [(m, o)]) s ->
  exists s1 rr, hist M s0 l s1 /\ m_run M s1 rr m = Ret (s, o).
Proof.
  intros M s0 l m o s H. inversion H as [E|l1 s1 rr m1 s2 o1 H1 R E]; [destruct l; discriminate|].
  apply app_inj_tail in E. destruct E as [-> E]. injection E as -> ->. exists s1, rr. auto.
Qed.
Lemma oks_snoc : forall M (l : log M) m o, exists x, forall y, l = oks y -> l ++ [(m, Ok o)] = oks (y ++ x).
Proof. intros. exists [(m, o)]. intros y ->. rewrite oks_app. reflexivity. Qed.
Lemma hist_oks_run : forall (M : machine) s0 x s rr m s' o,
  hist M s0 (oks x) s -> m_run M s rr m = Ret (s', Ok o) -> hist M s0 (oks (x ++ [(m, o)])) s'.
Proof. intros M s0 x s rr m s' o H R. rewrite oks_app. cbn [oks map fst snd]. eapply hist_run; eassumption. Qed.
Lemma hist_oks_snoc : forall (M : machine) s0 x m o s, hist M s0 (oks (x ++ [(m, o)])) s ->
  exists s1 rr, hist M s0 (oks x) s1 /\ m_run M s1 rr m = Ret (s, Ok o).
Proof. intros M s0 x m o s H. rewrite oks_app in H. apply (hist_snoc_inv M s0 (oks x) m (Ok o)) in H. exact H. Qed.

(** ** EUE *)
(** The position of the ratchet under which the i-th call of a session opens its message and
    seals its answer. *)
Definition recv_pos (rl : role) (i : nat) : nat :=
  match rl with Initiator => (2 * i - 1)%nat | Responder => (2 * i)%nat end.
Definition send_pos (rl : role) (i : nat) : nat :=
  match rl with Initiator => (2 * i)%nat | Responder => (2 * i + 1)%nat end.

(** The inner call behind the i-th outer call: the message opens to the inner one, and the
    inner answer is sealed into the outer one. *)
Definition call_opens (P : prims) (key ssid : bytes) (rl : role) (i : nat) (outer inner : bytes * option bytes) : Prop :=
  flight P key ssid (recv_pos rl i) (fst inner) (fst outer) /\
  wire P key ssid (send_pos rl i) (snd inner) (snd outer).
Definition opens (P : prims) (key ssid : bytes) (rl : role) (outer inner : calls) : Prop :=
  List.length inner = List.length outer /\
  forall i a b, nth_error outer i = Some a -> nth_error inner i = Some b -> call_opens P key ssid rl i a b.
Lemma opens_nil : forall P key ssid rl, opens P key ssid rl [] [].
Proof. intros. split; [reflexivity|]. intros [|i] a b H; discriminate. Qed.
Lemma opens_snoc : forall P key ssid rl x y a b, opens P key ssid rl x y ->
  call_opens P key ssid rl (List.length x) a b -> opens P key ssid rl (x ++ [a]) (y ++ [b]).
Proof.
  intros P key ssid rl x y a b [L H] C. split; [rewrite !app_length, L; reflexivity|].
  intros i a' b' A B. destruct (Nat.lt_ge_cases i (List.length x)) as [I|I].
  - rewrite nth_error_app1 in A by lia. rewrite nth_error_app1 in B by lia. eapply H; eassumption.
  - rewrite nth_error_app2 in A by lia. rewrite nth_error_app2 in B by lia. rewrite L in B.
    destruct (i - List.length x)%nat as [|j] eqn:E; [|destruct j; discriminate].
    cbn in A, B. injection A as <-. injection B as <-. replace i with (List.length x) by lia. exact C.
Qed.

(** The position of a session after n successful calls. *)
Definition eue_at (P : prims) (I : ibke) (key ssid : bytes) (rl : role) (n : nat) (s : IST I) (e : eue I) : Prop :=
  at_pos P I key ssid (recv_pos rl n) (match rl, n with Initiator, O => true | _, _ => false end) s e.
Lemma incoming_flight : forall P I key ssid n f s e c inc e1, at_pos P I key ssid n f s e ->
  eue_incoming P I e c = Ret (inc, e1) -> exists m, inc = Some m /\ e1 = e /\ flight P key ssid n m c.
Proof.
  intros P I key ssid n f s e c inc e1 A H. unfold at_pos in A. unfold eue_incoming in H. rewrite A in H. cbn [e_real e_msg_key] in H.
  rewrite A. destruct c as [|z c].
  - cbn in H. injection H as <- <-. exists []. split; [reflexivity|]. split; [reflexivity|]. left. auto.
  - replace (0 <? List.length (z :: c))%nat with true in H by (symmetry; apply Nat.ltb_lt; cbn; lia). cbn [andb] in H.
    destruct (auth_decrypt P (key_at P key ssid n) (z :: c)) as [[m|[]]|] eqn:D; cbn [obind assert_] in H; try discriminate.
    injection H as <- <-. exists m. split; [reflexivity|]. split; [reflexivity|]. right. split; [discriminate|exact D].
Qed.
Lemma eue_run_inv : forall P I key ssid rl n s e r os c e' o r',
  eue_at P I key ssid rl n s e -> eue_run P I e r os c = Ret (e', Ok o, r') ->
  exists m a s' r1, ik_run I s r os m = Ret (s', Ok a, r1) /\ flight P key ssid (recv_pos rl n) m c /\
    wire P key ssid (send_pos rl n) a o /\ eue_at P I key ssid rl (S n) s' e'.
Proof.
  intros P I key ssid rl n s e r os c e' o r' A H. unfold eue_run in H. unfold eue_at in A.
  set (f := match rl, n with Initiator, O => true | _, _ => false end) in A.
  destruct (eue_incoming P I e c) as [[inc e1]|] eqn:E1; [|discriminate H]. cbn [obind] in H.
  destruct (incoming_flight _ _ _ _ _ _ _ _ _ _ _ A E1) as [m [-> [-> F]]].
  assert (E2 : exists e2, eue_pre P I e = Ret e2 /\ at_pos P I key ssid (send_pos rl n) false s e2).
  { unfold eue_pre. destruct (e_first e) eqn:FE.
    - assert (f = true) by (unfold at_pos in A; rewrite A in FE; exact FE).
      assert (rl = Initiator /\ n = O) as [-> ->] by (unfold f in H0; destruct rl, n; try discriminate; auto).
      eexists. split; [reflexivity|]. unfold at_pos in A. rewrite A. reflexivity.
    - assert (f = false) by (unfold at_pos in A; rewrite A in FE; exact FE).
      destruct (ratchet_at P I key ssid _ _ s e A) as [e2 [R2 A2]]. exists e2. split; [exact R2|]. rewrite H0 in A2.
      replace (send_pos rl n) with (S (recv_pos rl n)); [exact A2|].
      unfold f in H0. destruct rl, n; try discriminate; cbn [recv_pos send_pos]; lia. }
  destruct E2 as [e2 [E2 A2]]. rewrite E2 in H. cbn [obind] in H. unfold at_pos in A2. subst e2. cbn [e_real e_sess unwrap obind e_msg_key e_chain_key e_first] in H.
  destruct (ik_run I s r os m) as [[[s' [a|er]] r1]|] eqn:ER; cbn [obind] in H; [|discriminate H|discriminate H].
  exists m, a, s', r1. split; [exact ER|]. split; [exact F|].
  destruct (eue_post_at P I key ssid (send_pos rl n) s' _ r1 a eq_refl) as [e3 [b [r3 [EP [W A3]]]]].
  rewrite EP in H. injection H as <- <- _. split; [exact W|]. unfold eue_at.
  replace (recv_pos rl (S n)) with (S (send_pos rl n)) by (destruct rl; cbn [recv_pos send_pos]; lia).
  destruct rl; exact A3.
Qed.
Lemma eue_m_run : forall P I e rr c e' o, m_run (eue_machine P I) e rr c = Ret (e', o) ->
  exists r', eue_run P I e (fst rr) (snd rr) c = Ret (e', o, r').
Proof.
  intros P I e rr c e' o R. cbn [eue_machine m_run m_st m_err] in R.
  destruct (eue_run P I e (fst rr) (snd rr) c) as [[[e1 o1] rest]|] eqn:ER; [|discriminate R].
  cbn [obind] in R. apply (f_equal (fun x => match x with Ret y => y | Panic => (e1, o1) end)) in R. exists rest. f_equal. f_equal. exact R.
Qed.
Lemma eue_new_inv : forall P I r ssid mpk cert usk rl key e0 r', eue_new P I r ssid mpk cert usk rl key = Ret (e0, r') ->
  eue_at P I key ssid rl 0 (fst (ik_new I r ssid mpk cert usk rl)) e0.
Proof.
  intros P I r ssid mpk cert usk rl key e0 r' H. unfold eue_new in H. destruct (ik_new I r ssid mpk cert usk rl) as [s r1].
  destruct (from_prk key) as [hk|] eqn:FP; cbn [obind] in H; [|discriminate H]. apply from_prk_inv in FP. destruct FP as [-> _].
  injection H as <- _. destruct rl; reflexivity.
Qed.
(** Every error-free history of an EUE session, whatever messages it was fed, is the sealed
    form of a history of the inner session; the session has moved along the key schedule by
    its own calls alone. *)
Lemma eue_hist_at : forall P I r ssid mpk cert usk rl key e0 r' x e,
  eue_new P I r ssid mpk cert usk rl key = Ret (e0, r') ->
  hist (eue_machine P I) e0 (oks x) e ->
  exists y, hist (ibke_machine I) (fst (ik_new I r ssid mpk cert usk rl)) (oks y) (e_sess e) /\
    opens P key ssid rl x y /\ eue_at P I key ssid rl (List.length x) (e_sess e) e.
Proof.
  intros P I r ssid mpk cert usk rl key e0 r' x. induction x as [|[c o] x IH] using rev_ind; intros e N H.
  - inversion H as [E1 E2|l s rr m s' o H1 R E1 E2]; [|destruct l; discriminate].
    pose proof (eue_new_inv _ _ _ _ _ _ _ _ _ _ _ N) as A. exists []. unfold eue_at, at_pos in A. cbn [List.length].
    replace (e_sess e) with (fst (ik_new I r ssid mpk cert usk rl)) by (rewrite <- E2, A; reflexivity).
    split; [constructor|]. split; [apply opens_nil|]. rewrite <- E2. exact A.
  - apply hist_oks_snoc in H. destruct H as [e1 [rr [H R]]]. destruct (IH e1 N H) as [y [HY [O A]]].
    apply eue_m_run in R. destruct R as [r1 R].
    destruct (eue_run_inv _ _ _ _ _ _ _ _ _ _ _ _ _ _ A R) as [m [a [s' [r2 [RI [F [W A']]]]]]].
    assert (ES : e_sess e = s') by (unfold eue_at, at_pos in A'; rewrite A'; reflexivity).
    exists (y ++ [(m, a)]). rewrite ES. split.
    { eapply hist_oks_run; [exact HY|]. cbn [ibke_machine m_run]. rewrite RI. reflexivity. }
    split; [apply opens_snoc; [exact O|split; assumption]|].
    rewrite app_length. cbn [List.length]. rewrite Nat.add_1_r. exact A'.
Qed.

(** ** LATKE *)
(** Every call of a LATKE session that returned is free of errors. *)
Lemma latke_log_oks : forall P I K (l : log (latke_machine P I K)), exists x, l = oks x.
Proof.
  intros P I K l. induction l as [|[m [o|[]]] l [x ->]]; [exists []; reflexivity|]. exists ((m, o) :: x). reflexivity.
Qed.
(** How the calls x of a LATKE session are made of the calls xp of its PAKE and the calls xe of
    its encrypted IBKE: first the ones, then the others; exactly when the initiator's PAKE ends
    without a message does one call serve both, the IBKE then being started on []. *)
Definition ends_silent (xp : calls) : Prop := exists xp' m, xp = xp' ++ [(m, None)].
Definition merges (rl : role) (x xp xe : calls) : Prop :=
  (x = xp ++ xe /\ (rl = Initiator -> ~ ends_silent xp)) \/
  (rl = Initiator /\ exists m o xp' xe', xp = xp' ++ [(m, None)] /\ xe = ([], o) :: xe' /\ x = xp' ++ (m, o) :: xe').
Lemma merges_snoc : forall rl x xp xe p, merges rl x xp xe -> merges rl (x ++ [p]) xp (xe ++ [p]).
Proof.
  intros rl x xp xe p [[-> NS]|[R [m [o [xp' [xe' [-> [-> ->]]]]]]]]; [left; split; [apply app_assoc_reverse|exact NS]|right].
  split; [exact R|]. exists m, o, xp', (xe' ++ [p]). split; [reflexivity|]. split; [reflexivity|]. rewrite <- app_assoc. reflexivity.
Qed.
(** A PAKE that finishes with its last call when it has nothing to send. *)
Definition silent_when_done (K : pake) : Prop :=
  forall s os m s', pk_run K s os m = Ret (s', Ok None) -> pk_done K s' = true.

Lemma eue_run_latke : forall P I e r os m e' o, latke_eue_run P I e r os m = Ret (e', o) ->
  exists r', eue_run P I e r (os_ibke os) m = Ret (e', Ok o, r').
Proof.
  intros P I e r os m e' o H. unfold latke_eue_run in H.
  destruct (eue_run P I e r (os_ibke os) m) as [[[e1 [a|er]] r1]|]; cbn [obind unwrap_ok] in H; [|discriminate H|discriminate H].
  injection H as -> ->. exists r1. reflexivity.
Qed.

Section Hist.
Variables (P : prims) (I : ibke) (K : pake).
Variables (r0 : rng) (ssid : bytes) (pf : pwfile I) (rl : role) (peer : peer_model).

Definition latke_parts (p0 : PST K) (x : calls) (s : latke I K) : Prop :=
  l_ssid s = ssid /\ l_pwfile s = pf /\ l_role s = rl /\
  exists xp, hist (pake_machine K) p0 (oks xp) (l_pake s) /\
    ((l_ibke s = None /\ x = xp /\ ~ ends_silent xp) \/
     (exists k r1 e0 r2 e xe, pk_done K (l_pake s) = true /\ pk_fin K (l_pake s) = Ret k /\ l_ibke s = Some e /\
        merges rl x xp xe /\
        eue_new P I r1 ssid (pf_mpk pf) (pf_cert pf) (pf_usk pf) rl k = Ret (e0, r2) /\
        hist (eue_machine P I) e0 (oks xe) e)).
Lemma latke_parts_run : silent_when_done K -> forall p0 x s r os m s' o,
  latke_parts p0 x s -> latke_run P I K s r os m = Ret (s', o) -> latke_parts p0 (x ++ [(m, o)]) s'.
Proof.
  intros SD p0 x s r os m s' o [ES [EP [ER [xp [HP C]]]]] R. unfold latke_run in R.
  destruct (latke_pake I K s os m) as [[[ps out] just]|] eqn:LP; cbn [obind] in R; [|discriminate R].
  unfold latke_pake in LP.
  destruct (pk_done K (l_pake s)) eqn:D; cbn [negb] in LP.
  - (* the PAKE was done *)
    injection LP as <- <- <-.
    destruct C as [[LN [-> NS]]|[k [r1 [e0 [r2 [e [xe [_ [FK [LN [MG [EN HE]]]]]]]]]]]].
    + unfold latke_eue in R. rewrite LN, ES, EP, ER in R.
      destruct (pk_fin K (l_pake s)) as [k|] eqn:FK; cbn [obind] in R; [|discriminate R].
      destruct (eue_new P I r ssid (pf_mpk pf) (pf_cert pf) (pf_usk pf) rl k) as [[e0 r2]|] eqn:EN; cbn [obind] in R; [|discriminate R].
      destruct (latke_eue_run P I e0 r2 os m) as [[e' out]|] eqn:RE; cbn [obind] in R; [|discriminate R].
      injection R as <- <-. apply eue_run_latke in RE. destruct RE as [r3 RE].
      split; [reflexivity|]. split; [reflexivity|]. split; [reflexivity|]. cbn [l_pake l_ibke].
      exists xp. split; [exact HP|]. right. exists k, r, e0, r2, e', [(m, out)].
      split; [exact D|]. split; [exact FK|]. split; [reflexivity|]. split; [left; split; [reflexivity|intros _; exact NS]|]. split; [exact EN|].
      apply (hist_oks_run (eue_machine P I) _ [] e0 (r2, os_ibke os)); [constructor|]. cbn [eue_machine m_run fst snd]. rewrite RE. reflexivity.
    + unfold latke_eue in R. rewrite LN in R. cbn [obind] in R.
      destruct (latke_eue_run P I e r os m) as [[e' out]|] eqn:RE; cbn [obind] in R; [|discriminate R].
      injection R as <- <-. apply eue_run_latke in RE. destruct RE as [r3 RE].
      split; [exact ES|]. split; [exact EP|]. split; [exact ER|]. cbn [l_pake l_ibke].
      exists xp. split; [exact HP|]. right. exists k, r1, e0, r2, e', (xe ++ [(m, out)]).
      split; [exact D|]. split; [exact FK|]. split; [reflexivity|]. split; [apply merges_snoc; exact MG|]. split; [exact EN|].
      eapply (hist_oks_run (eue_machine P I) _ _ _ (r, os_ibke os)); [exact HE|]. cbn [eue_machine m_run fst snd]. rewrite RE. reflexivity.
  - (* the PAKE runs *)
    destruct (pk_run K (l_pake s) (os_pake os) m) as [[p' [a|er]]|] eqn:RP; cbn [obind unwrap_ok] in LP; [|discriminate LP|discriminate LP].
    injection LP as <- <- <-.
    destruct C as [[LN [-> NS]]|[k [r1 [e0 [r2 [e [xe [D' _]]]]]]]]; [|discriminate D'].
    assert (HP' : hist (pake_machine K) p0 (oks (xp ++ [(m, a)])) p').
    { eapply (hist_oks_run _ _ _ _ (r, os_pake os)); [exact HP|]. exact RP. }
    destruct a as [a|].
    + injection R as <- <-. split; [exact ES|]. split; [exact EP|]. split; [exact ER|]. cbn [l_pake l_ibke].
      exists (xp ++ [(m, Some a)]). split; [exact HP'|]. left. split; [exact LN|]. split; [reflexivity|].
      intros [xq [mq EQ]]. apply app_inj_tail in EQ. destruct EQ as [_ EQ]. discriminate EQ.
    + pose proof (SD _ _ _ _ RP) as D'. rewrite D' in R. unfold latke_eue in R. rewrite LN, ES, EP, ER in R.
      destruct (pk_fin K p') as [k|] eqn:FK; cbn [obind] in R; [|discriminate R].
      destruct (eue_new P I r ssid (pf_mpk pf) (pf_cert pf) (pf_usk pf) rl k) as [[e0 r2]|] eqn:EN; cbn [obind] in R; [|discriminate R].
      destruct rl eqn:RLE; cbn [role_eqb] in R.
      * destruct (latke_eue_run P I e0 r2 os []) as [[e' out]|] eqn:RE; cbn [obind] in R; [|discriminate R].
        injection R as <- <-. apply eue_run_latke in RE. destruct RE as [r3 RE].
        split; [reflexivity|]. split; [reflexivity|]. split; [symmetry; exact RLE|]. cbn [l_pake l_ibke].
        exists (xp ++ [(m, None)]). split; [exact HP'|]. right. exists k, r, e0, r2, e', [([], out)].
        split; [exact D'|]. split; [exact FK|]. split; [reflexivity|].
        split; [right; split; [exact RLE|]; exists m, out, xp, []; auto|]. split; [rewrite RLE; exact EN|].
        apply (hist_oks_run (eue_machine P I) _ [] e0 (r2, os_ibke os)); [constructor|]. cbn [eue_machine m_run fst snd]. rewrite RE. reflexivity.
      * cbn [obind] in R. injection R as <- <-.
        split; [reflexivity|]. split; [reflexivity|]. split; [symmetry; exact RLE|]. cbn [l_pake l_ibke].
        exists (xp ++ [(m, None)]). split; [exact HP'|]. right. exists k, r, e0, r2, e0, [].
        split; [exact D'|]. split; [exact FK|]. split; [reflexivity|].
        split; [left; split; [rewrite app_nil_r; reflexivity|intro X; rewrite RLE in X; discriminate X]|]. split; [rewrite RLE; exact EN|constructor].
Qed.
Lemma latke_m_run : forall s rr m s' o, m_run (latke_machine P I K) s rr m = Ret (s', Ok o) ->
  latke_run P I K s (fst rr) (snd rr) m = Ret (s', o).
Proof.
  intros s rr m s' o H. cbn [latke_machine m_run m_st m_err] in H.
  destruct (latke_run P I K s (fst rr) (snd rr) m) as [[s1 o1]|]; [|discriminate H]. cbn [obind] in H.
  apply (f_equal (fun x => match x with Ret (a, Ok b) => (a, b) | _ => (s1, o1) end)) in H. f_equal. exact H.
Qed.
Lemma latke_parts_hist : silent_when_done K -> forall s0 r0' x s,
  latke_new I K r0 ssid pf rl peer = Ret (s0, r0') ->
  hist (latke_machine P I K) s0 (oks x) s ->
  exists p0, pk_new K r0 ssid (pake_input I pf rl peer) rl = Ret (p0, r0') /\ latke_parts p0 x s /\
    l_trans s = log_transcript (oks x : log (latke_machine P I K)).
Proof.
  intros SD s0 r0' x s N. unfold latke_new in N.
  destruct (pk_new K r0 ssid (pake_input I pf rl peer) rl) as [[p0 r1]|] eqn:PN; cbn [obind] in N; [|discriminate N].
  injection N as <- <-. revert s. induction x as [|[m o] x IH] using rev_ind; intros s H.
  - inversion H as [E1 E2|l s1 rr m s' o H1 R E1 E2]; [|destruct l; discriminate].
    exists p0. split; [reflexivity|]. subst s. split; [|reflexivity].
    split; [reflexivity|]. split; [reflexivity|]. split; [reflexivity|]. exists []. split; [constructor|]. left. split; [reflexivity|]. split; [reflexivity|].
    intros [xq [mq EQ]]. destruct xq; discriminate EQ.
  - apply hist_oks_snoc in H. destruct H as [s1 [rr [H R]]]. destruct (IH s1 H) as [p1 [E [LP T]]].
    exists p1. split; [exact E|]. apply latke_m_run in R. split; [eapply latke_parts_run; eassumption|].
    rewrite oks_app, log_transcript_app, <- T. cbn [oks map fst snd log_transcript]. rewrite app_nil_r.
    assert (X : l_trans s = latke_absorb (l_trans s1) m o).
    { unfold latke_run in R. destruct (latke_pake I K s1 (snd rr) m) as [[[ps out] just]|]; cbn [obind] in R; [|discriminate R].
      destruct out as [a|]; [injection R as <- <-; reflexivity|].
      destruct (latke_eue P I K s1 ps (fst rr)) as [[e r2]|]; cbn [obind] in R; [|discriminate R].
      match type of R with obind ?y _ = _ => destruct y as [[e' out]|]; cbn [obind] in R; [|discriminate R] end.
      injection R as <- <-. reflexivity. }
    rewrite X. unfold latke_absorb. destruct m as [|z m]; cbn [List.length Nat.ltb Nat.leb app]; [destruct o; reflexivity|].
    rewrite <- app_assoc. destruct o; reflexivity.
Qed.
End Hist.
