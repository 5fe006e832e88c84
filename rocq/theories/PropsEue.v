(** * PropsEue: C16-C18, the Encrypt-and-Unconditionally-Execute transform, for every inner
    identity-based key exchange and every set of primitives. *)
From Coq Require Import ZArith List Lia Bool String.
From Verif Require Import Base Crypto Symmetric Driver Eue.
Import ListNotations.
Open Scope Z_scope.

(** A pair of EUE sessions created with the same initial key and ssid. *)
Definition eue_pair (P : prims) (I : ibke) (key ssid : bytes)
  (rI rR : rng) (mI mR : MPK I) (cI cR : CERT I) (uI uR : USK I) (eI eR : eue I) : Prop :=
  eue_new P I rI ssid mI cI uI Initiator key = Ret (eI, snd (ik_new I rI ssid mI cI uI Initiator)) /\
  eue_new P I rR ssid mR cR uR Responder key = Ret (eR, snd (ik_new I rR ssid mR cR uR Responder)).

(** ** C16 *)
(** An outer message carries an inner one: absent for absent, empty for empty, and otherwise
    a ciphertext 44 bytes longer that decrypts to it under the n-th key of the schedule. *)
Definition carries (P : prims) (key ssid : bytes) (n : nat) (inner outer : option bytes) : Prop :=
  match inner, outer with
  | None, None => True
  | Some [], Some [] => True
  | Some (x :: m), Some c => List.length c = (List.length (x :: m) + 44)%nat /\
      auth_decrypt P (key_at P key ssid n) c = Ret (Ok (x :: m))
  | _, _ => False
  end.

Lemma wires_length : forall P key ssid l l' n, wires P key ssid n l l' -> List.length l = List.length l'.
Proof.
  intros P key ssid l. induction l as [|a l IH]; intros [|b l'] n H; cbn in *; try tauto.
  f_equal. apply (IH l' (S n)). tauto.
Qed.
Lemma wires_nth : forall P key ssid l l' n k a, wires P key ssid n l l' -> nth_error l k = Some a ->
  exists b, nth_error l' k = Some b /\ wire P key ssid (n + k) a b.
Proof.
  intros P key ssid l. induction l as [|x l IH]; intros [|b l'] n k a H E; cbn in *; try tauto.
  - destruct k; discriminate.
  - destruct k as [|k]; cbn in *.
    + injection E as ->. exists b. rewrite Nat.add_0_r. tauto.
    + destruct H as [_ H]. destruct (IH l' (S n) k a H E) as [c [A B]].
      exists c. split; [exact A|]. replace (n + S k)%nat with (S n + k)%nat by lia. exact B.
Qed.

(** Whatever happens in the bare protocol (completion, an error, a panic, or still running)
    happens under EUE, for any number of steps; the inner sessions go through the same
    states, so is_done and finalize agree; and the k-th message carries the k-th message of
    the bare protocol. *)
Theorem eue_transparent : forall P I key ssid rI rR mI mR cI cR uI uR,
  List.length key = 32%nat ->
  exists eI eR, eue_pair P I key ssid rI rR mI mR cI cR uI uR eI eR /\
  forall n tape,
    let bare := honest_run (ibke_machine I) n tape
                  (fst (ik_new I rI ssid mI cI uI Initiator)) (fst (ik_new I rR ssid mR cR uR Responder)) in
    let enc := honest_run (eue_machine P I) n tape eI eR in
    r_status enc = r_status bare /\
    eue_done I (r_init enc) = ik_done I (r_init bare) /\
    eue_done I (r_resp enc) = ik_done I (r_resp bare) /\
    eue_fin I (r_init enc) = ik_fin I (r_init bare) /\
    eue_fin I (r_resp enc) = ik_fin I (r_resp bare) /\
    List.length (r_outs enc) = List.length (r_outs bare) /\
    forall k inner, nth_error (r_outs bare) k = Some inner ->
      exists outer, nth_error (r_outs enc) k = Some outer /\ carries P key ssid k inner outer.
Proof.
  intros P I key ssid rI rR mI mR cI cR uI uR L.
  destruct (eue_new_at P I rI ssid mI cI uI Initiator key L) as [eI [NI AI]].
  destruct (eue_new_at P I rR ssid mR cR uR Responder key L) as [eR [NR AR]].
  exists eI, eR. split; [split; assumption|]. intros n tape bare enc.
  assert (S : same_result P I key ssid 0 bare enc).
  { apply eue_drive. cbn [in_step sel]. repeat split; assumption. }
  destruct S as [S [W [EI ER]]]. unfold eue_done, eue_fin. rewrite EI, ER.
  repeat (split; [auto|]).
  { symmetry. eapply wires_length. exact W. }
  intros k inner E. destruct (wires_nth _ _ _ _ _ _ _ _ W E) as [outer [A B]].
  exists outer. split; [exact A|]. cbn [Nat.add] in B.
  destruct inner as [[|x m]|]; cbn [wire carries] in *; subst; auto.
  destruct B as [r ->]. split; [apply auth_encrypt_length|apply auth_roundtrip].
Qed.

(** ** C17 *)
(** The k-th message, if not empty, is an encryption under position k of the ratchet chain,
    whichever party sends it; positions are defined by [key_at] from the initial key and the
    ssid alone. *)
Theorem eue_key_per_message : forall P I key ssid rI rR mI mR cI cR uI uR eI eR n tape k x m,
  List.length key = 32%nat ->
  eue_pair P I key ssid rI rR mI mR cI cR uI uR eI eR ->
  nth_error (r_outs (honest_run (ibke_machine I) n tape
    (fst (ik_new I rI ssid mI cI uI Initiator)) (fst (ik_new I rR ssid mR cR uR Responder)))) k = Some (Some (x :: m)) ->
  exists r, nth_error (r_outs (honest_run (eue_machine P I) n tape eI eR)) k =
            Some (Some (fst (auth_encrypt P r (key_at P key ssid k) (x :: m)))).
Proof.
  intros P I key ssid rI rR mI mR cI cR uI uR eI eR n tape k x m L [NI NR] E.
  destruct (eue_new_at P I rI ssid mI cI uI Initiator key L) as [eI' [NI' AI]].
  destruct (eue_new_at P I rR ssid mR cR uR Responder key L) as [eR' [NR' AR]].
  rewrite NI in NI'. injection NI' as <-. rewrite NR in NR'. injection NR' as <-.
  pose proof (eue_drive P I key ssid n 0 Initiator tape
    (fst (ik_new I rI ssid mI cI uI Initiator)) (fst (ik_new I rR ssid mR cR uR Responder)) eI eR [] []) as S.
  destruct S as [S [W [EI ER]]]; [cbn [in_step sel]; repeat split; assumption|].
  destruct (wires_nth _ _ _ _ _ _ _ _ W E) as [outer [A B]]. cbn [Nat.add wire] in B.
  destruct B as [r ->]. exists r. exact A.
Qed.

(** After any number n > 0 of delivered messages the party about to receive message n-1 holds
    exactly key n-1, and the party that has just sent it already holds key n: the keys are in
    step, and a key is never used for two messages. *)
Lemma eue_drive_in_step : forall P I init ssid f j t tape sI sR eI eR m c,
  in_step P I init ssid j (sel t sI sR) (sel t sR sI) (sel t eI eR) (sel t eR eI) m c ->
  let r := drive (eue_machine P I) f t tape eI eR c in
  r_status r = OutOfFuel ->
  exists sI' sR' m' c',
    let t' := if Nat.even f then t else flip t in
    in_step P I init ssid (j + f) (sel t' sI' sR') (sel t' sR' sI')
      (sel t' (r_init r) (r_resp r)) (sel t' (r_resp r) (r_init r)) m' c'.
Proof.
  intros P I init ssid f. induction f as [|f IH]; intros j t tape sI sR eI eR m c H r S.
  { exists sI, sR, m, c. cbn [Nat.even]. rewrite Nat.add_0_r. exact H. }
  assert (SS : e_sess (sel t eI eR) = sel t sI sR).
  { destruct j; cbn [in_step] in H; destruct H as [A [B _]]; rewrite A; auto. }
  subst r. cbn [drive] in *. cbn [eue_machine m_done m_run m_st] in *. unfold eue_done in *. rewrite SS in *.
  destruct (ik_done I (sel t sI sR)) eqn:D; [discriminate S|].
  assert (RR : run_rel P I init ssid j (ik_run I (sel t sI sR) (fst (tape O)) (snd (tape O)) m)
                 (eue_run P I (sel t eI eR) (fst (tape O)) (snd (tape O)) c)).
  { destruct j as [|k]; cbn [in_step] in H.
    - destruct H as [A [_ [-> ->]]]. apply eue_run_first. exact A.
    - destruct H as [A [_ F]]. apply eue_run_next; assumption. }
  assert (OTH : at_pos P I init ssid j false (sel t sR sI) (sel t eR eI)).
  { destruct j; cbn [in_step] in H; tauto. }
  unfold run_rel in RR.
  destruct (ik_run I (sel t sI sR) (fst (tape O)) (snd (tape O)) m) as [[[s' [a|er]] r1]|] eqn:ER; cbn [obind] in *.
  - destruct RR as [e' [b [r' [EE [W A]]]]]. rewrite EE in *. cbn [obind] in *. cbn [r_status r_init r_resp] in *.
    assert (IS : in_step P I init ssid (Datatypes.S j) (sel (flip t) (sel t s' sI) (sel t sR s'))
      (sel (flip t) (sel t sR s') (sel t s' sI)) (sel (flip t) (sel t e' eI) (sel t eR e'))
      (sel (flip t) (sel t eR e') (sel t e' eI)) (opt_bytes a) (opt_bytes b)).
    { cbn [in_step]. destruct t; cbn [flip sel] in *; (split; [exact OTH|split; [exact A|apply wire_flight; exact W]]). }
    specialize (IH (Datatypes.S j) (flip t) (shift tape) _ _ _ _ _ _ IS S).
    destruct IH as [sI' [sR' [m' [c' IH]]]]. exists sI', sR', m', c'. cbv zeta in IH |- *.
    rewrite Nat.even_succ, <- Nat.negb_even. replace (j + Datatypes.S f)%nat with (Datatypes.S j + f)%nat by lia.
    destruct (Nat.even f); cbn [negb]; destruct t; cbn [flip] in *; exact IH.
  - destruct RR as [e' [r' [EE E]]]. rewrite EE in S. cbn [obind] in S. discriminate S.
  - rewrite RR in S. cbn [obind] in S. discriminate S.
Qed.
Theorem eue_keys_in_step : forall P I key ssid rI rR mI mR cI cR uI uR eI eR n tape,
  List.length key = 32%nat ->
  eue_pair P I key ssid rI rR mI mR cI cR uI uR eI eR ->
  let r := honest_run (eue_machine P I) (S n) tape eI eR in
  r_status r = OutOfFuel ->
  let next := if Nat.even n then r_resp r else r_init r in   (* about to receive message n *)
  let prev := if Nat.even n then r_init r else r_resp r in   (* has sent message n *)
  e_msg_key next = key_at P key ssid n /\ e_msg_key prev = key_at P key ssid (S n).
Proof.
  intros P I key ssid rI rR mI mR cI cR uI uR eI eR n tape L [NI NR] r S.
  destruct (eue_new_at P I rI ssid mI cI uI Initiator key L) as [eI' [NI' AI]].
  destruct (eue_new_at P I rR ssid mR cR uR Responder key L) as [eR' [NR' AR]].
  rewrite NI in NI'. injection NI' as <-. rewrite NR in NR'. injection NR' as <-.
  destruct (eue_drive_in_step P I key ssid (Datatypes.S n) 0 Initiator tape
    (fst (ik_new I rI ssid mI cI uI Initiator)) (fst (ik_new I rR ssid mR cR uR Responder)) eI eR [] []) as [a [b [m' [c' H]]]].
  - cbn [in_step sel]. repeat split; assumption.
  - exact S.
  - cbv zeta in H. cbn [Nat.add in_step] in H. rewrite Nat.even_succ, <- Nat.negb_even in H.
    fold (honest_run (eue_machine P I) (Datatypes.S n) tape eI eR) in H. fold r in H.
    destruct H as [A [B _]]. destruct (Nat.even n); cbn [negb flip sel] in A, B; unfold at_pos in A, B; rewrite A, B; split; reflexivity.
Qed.

(** ** C18 *)
(** The documented fallback ("exit real mode and send zeros") never happens: every session
    reachable from a fresh one, whatever messages it is fed, is in real mode, and every
    non-empty message that does not authenticate under the current key aborts the program. *)
Lemma ratchet_real : forall P I e e', ratchet_keys P I e = Ret e' -> e_real e' = e_real e /\ e_sess e' = e_sess e.
Proof.
  intros P I e e' H. unfold ratchet_keys in H. destruct (from_prk (e_chain_key e)); [|discriminate].
  cbn [obind] in H. injection H as <-. split; reflexivity.
Qed.
Lemma eue_post_real : forall P I e r o e' x r', eue_post P I e r o = Ret (e', x, r') -> e_real e' = e_real e.
Proof.
  intros P I e r o e' x r' H. unfold eue_post in H.
  match type of H with (let '(_, _) := ?p in _) = _ => destruct p as [c r1] end.
  destruct (ratchet_keys P I e) as [e1|] eqn:E; [|discriminate]. cbn [obind] in H. injection H as <- _ _.
  apply ratchet_real in E. tauto.
Qed.
Lemma eue_run_real : forall P I e r os c e' x r', eue_run P I e r os c = Ret (e', x, r') ->
  e_real e = true -> e_real e' = true.
Proof.
  intros P I e r os c e' x r' H R. unfold eue_run in H.
  destruct (eue_incoming P I e c) as [[inc e1]|] eqn:E1; [|discriminate]. cbn [obind] in H.
  assert (R1 : e_real e1 = true).
  { unfold eue_incoming in E1. rewrite R in E1.
    destruct ((0 <? List.length c)%nat && true); [|injection E1 as _ <-; exact R].
    destruct (auth_decrypt P (e_msg_key e) c) as [[m|[]]|]; cbn [obind assert_] in E1; try discriminate.
    injection E1 as _ <-. exact R. }
  destruct (eue_pre P I e1) as [e2|] eqn:E2; [|discriminate]. cbn [obind] in H.
  assert (R2 : e_real e2 = true).
  { unfold eue_pre in E2. destruct (negb (e_first e1)).
    - apply ratchet_real in E2. rewrite (proj1 E2). exact R1.
    - injection E2 as <-. exact R1. }
  rewrite R2 in H. destruct (unwrap inc) as [m|]; [|discriminate]. cbn [obind] in H.
  destruct (ik_run I (e_sess e2) r os m) as [[[s' [o|er]] r1]|]; [| |discriminate]; cbn [obind] in H.
  - apply eue_post_real in H. exact H.
  - injection H as <- _ _. cbn [e_real]. first [reflexivity | exact R2].
Qed.
Lemma eue_reach_real : forall P I e0 e, e_real e0 = true -> reach (eue_machine P I) e0 e -> e_real e = true.
Proof.
  intros P I e0 e R H. induction H as [|s rr msg s' o H IH E]; [exact R|].
  cbn [eue_machine m_run] in E.
  destruct (eue_run P I s (fst rr) (snd rr) msg) as [[[e' x] r']|] eqn:E2; [|discriminate].
  cbn [obind] in E. injection E as <- _. eapply eue_run_real; [exact E2|exact IH].
Qed.
Theorem eue_never_leaves_real_mode : forall P I r ssid mpk cert usk rl key e0 r' e,
  eue_new P I r ssid mpk cert usk rl key = Ret (e0, r') ->
  reach (eue_machine P I) e0 e -> e_real e = true.
Proof.
  intros P I r ssid mpk cert usk rl key e0 r' e N H. eapply eue_reach_real; [|exact H].
  unfold eue_new in N. destruct (ik_new I r ssid mpk cert usk rl) as [s r1].
  destruct (from_prk key); [|discriminate]. cbn [obind] in N. injection N as <- _. reflexivity.
Qed.
Theorem eue_bad_ciphertext_panics : forall P I r ssid mpk cert usk rl key e0 r' e r1 os c,
  eue_new P I r ssid mpk cert usk rl key = Ret (e0, r') ->
  reach (eue_machine P I) e0 e ->
  c <> [] -> (forall m, auth_decrypt P (e_msg_key e) c <> Ret (Ok m)) ->
  eue_run P I e r1 os c = Panic.
Proof.
  intros P I r ssid mpk cert usk rl key e0 r' e r1 os c N H NE B.
  pose proof (eue_never_leaves_real_mode _ _ _ _ _ _ _ _ _ _ _ _ N H) as R.
  unfold eue_run, eue_incoming. rewrite R. destruct c as [|x c]; [congruence|].
  replace (0 <? List.length (x :: c))%nat with true by (symmetry; apply Nat.ltb_lt; cbn; lia). cbn [andb].
  destruct (auth_decrypt P (e_msg_key e) (x :: c)) as [[m|[]]|] eqn:E; [|reflexivity|reflexivity].
  exfalso. exact (B m eq_refl).
Qed.
(** Such ciphertexts exist in every reachable state: anything shorter than 44 bytes, for one. *)
Theorem eue_short_ciphertext_panics : forall P I r ssid mpk cert usk rl key e0 r' e r1 os c,
  eue_new P I r ssid mpk cert usk rl key = Ret (e0, r') ->
  reach (eue_machine P I) e0 e ->
  (0 < List.length c < 44)%nat -> eue_run P I e r1 os c = Panic.
Proof.
  intros. eapply eue_bad_ciphertext_panics; eauto.
  - intros ->. cbn in *. lia.
  - intros m E. assert (X : auth_decrypt P (e_msg_key e) c = Panic) by (apply auth_decrypt_panic; lia). congruence.
Qed.
