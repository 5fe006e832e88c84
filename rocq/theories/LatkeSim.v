(** * LatkeSim: a LATKE run is a PAKE run followed by an encrypted IBKE run. *)
From Coq Require Import ZArith List Lia Bool String.
From Verif Require Import Base Crypto Symmetric Driver Pakes Eue Latke IbkeSpec.
Import ListNotations.
Open Scope Z_scope.

(** ** Inversion of a run *)
Lemma drive_inv : forall (M : machine) f t tape sI sR m st o outs a b,
  drive M f t tape sI sR m = Res st (o :: outs) a b ->
  exists f' s', f = S f' /\ m_done M (sel t sI sR) = false /\ m_run M (sel t sI sR) (tape O) m = Ret (s', Ok o) /\
    drive M f' (flip t) (shift tape) (sel t s' sI) (sel t sR s') (opt_bytes o) = Res st outs a b.
Proof.
  intros M [|f] t tape sI sR m st o outs a b H; [discriminate|]. cbn [drive] in H.
  destruct (m_done M (sel t sI sR)); [discriminate|].
  destruct (m_run M (sel t sI sR) (tape O) m) as [[s' [o'|e]]|] eqn:E; [|discriminate|discriminate].
  destruct (drive M f (flip t) (shift tape) (sel t s' sI) (sel t sR s') (opt_bytes o')) as [st' outs' a' b'] eqn:D.
  cbn [r_status r_outs r_init r_resp] in H. injection H as -> -> -> -> ->. exists f, s'. auto.
Qed.
Lemma drive_nil_inv : forall (M : machine) f t tape sI sR m a b,
  drive M f t tape sI sR m = Res Completed [] a b ->
  exists f', f = S f' /\ m_done M (sel t sI sR) = true /\ a = sI /\ b = sR.
Proof.
  intros M [|f] t tape sI sR m a b H; [discriminate|]. cbn [drive] in H.
  destruct (m_done M (sel t sI sR)) eqn:D; [injection H as -> ->; exists f; auto|].
  destruct (m_run M (sel t sI sR) (tape O) m) as [[s' [o'|e]]|]; discriminate.
Qed.
Lemma drive_step : forall (M : machine) f t tape sI sR m s' o r,
  m_done M (sel t sI sR) = false -> m_run M (sel t sI sR) (tape O) m = Ret (s', Ok o) ->
  drive M f (flip t) (shift tape) (sel t s' sI) (sel t sR s') (opt_bytes o) = r ->
  drive M (S f) t tape sI sR m = Res (r_status r) (o :: r_outs r) (r_init r) (r_resp r).
Proof. intros M f t tape sI sR m s' o r D R <-. cbn [drive]. rewrite D, R. reflexivity. Qed.

Definition shiftn (n : nat) (tape : nat -> rng * rng) : nat -> rng * rng := fun k => tape (n + k)%nat.
(** The randomness the inner PAKE and IBKE see. *)
Definition ptape (tape : nat -> rng * rng) : nat -> rng * rng := fun k => (fst (tape k), os_pake (snd (tape k))).
Definition itape (tape : nat -> rng * rng) : nat -> rng * rng := fun k => (fst (tape k), os_ibke (snd (tape k))).

Section SIM.
Variables (P : prims) (I : ibke) (K : pake) (ssid : bytes) (pfI pfR : pwfile I).
Local Notation LI ps ib tr := (Latke ssid pfI Initiator ps ib tr : latke I K).
Local Notation LR ps ib tr := (Latke ssid pfR Responder ps ib tr : latke I K).
Local Notation LM := (latke_machine P I K).

(** ** Phase 1: as long as the PAKE sends messages, LATKE sends the same. *)
Lemma latke_run_pake : forall pf rl ps tr r os m ps' o,
  pk_done K ps = false -> pk_run K ps (os_pake os) m = Ret (ps', Ok (Some o)) ->
  latke_run P I K (Latke ssid pf rl ps None tr) r os m =
  Ret (Latke ssid pf rl ps' None (latke_absorb tr m (Some o)), Some o).
Proof.
  intros pf rl ps tr r os m ps' o D R. unfold latke_run, latke_pake. cbn [l_pake]. rewrite D. cbn [negb].
  rewrite R. cbn [obind unwrap_ok]. reflexivity.
Qed.
Lemma phase1 : forall ms t tape pI pR msg trI trR pI' pR' F,
  drive (pake_machine K) F t (ptape tape) pI pR msg = Res Completed (map Some ms ++ [None]) pI' pR' ->
  exists F' qI qR t' msg' trI' trR',
    t' = (if Nat.even (List.length ms) then t else flip t) /\
    drive (pake_machine K) F' t' (ptape (shiftn (List.length ms) tape)) qI qR msg' = Res Completed [None] pI' pR' /\
    forall f, drive LM (List.length ms + f) t tape (LI pI None trI) (LR pR None trR) msg =
      let r := drive LM f t' (shiftn (List.length ms) tape) (LI qI None trI') (LR qR None trR') msg' in
      Res (r_status r) (map Some ms ++ r_outs r) (r_init r) (r_resp r).
Proof.
  induction ms as [|m ms IH]; intros t tape pI pR msg trI trR pI' pR' F H.
  - exists F, pI, pR, t, msg, trI, trR. cbn [List.length Nat.even map app Nat.add] in *. split; [reflexivity|]. split; [exact H|].
    intro f. change (shiftn 0 tape) with tape. cbn zeta. destruct (drive LM f t tape _ _ msg); reflexivity.
  - cbn [map app] in H. apply drive_inv in H. destruct H as [F' [s' [-> [D [R H]]]]].
    cbn [pake_machine m_done m_run m_st] in D, R. unfold ptape at 1 in R. cbn [snd] in R.
    set (trI1 := match t with Initiator => latke_absorb trI msg (Some m) | Responder => trI end).
    set (trR1 := match t with Initiator => trR | Responder => latke_absorb trR msg (Some m) end).
    change (shift (ptape tape)) with (ptape (shift tape)) in H.
    destruct (IH _ _ _ _ _ trI1 trR1 _ _ _ H) as [F'' [qI [qR [t' [msg' [trI' [trR' [T [PD LD]]]]]]]]].
    exists F'', qI, qR, t', msg', trI', trR'. split.
    { rewrite T. cbn [List.length]. rewrite Nat.even_succ, <- Nat.negb_even. destruct (Nat.even (List.length ms)); destruct t; reflexivity. }
    split; [exact PD|]. intro f. cbn [List.length Nat.add map app].
    change (shiftn (S (List.length ms)) tape) with (shiftn (List.length ms) (shift tape)). cbn zeta.
    specialize (LD f). cbn zeta in LD. unfold trI1, trR1 in LD.
    destruct t; cbn [sel flip] in *.
    + eapply drive_I; [reflexivity| |exact LD]. cbn [latke_machine m_run]. rewrite (latke_run_pake _ _ _ _ _ _ _ _ _ D R). reflexivity.
    + eapply drive_R; [reflexivity| |exact LD]. cbn [latke_machine m_run]. rewrite (latke_run_pake _ _ _ _ _ _ _ _ _ D R). reflexivity.
Qed.

(** ** Phase 2: once both have the encrypted IBKE, LATKE is the encrypted IBKE. *)
Lemma latke_run_eue : forall pf rl ps e tr r os m e' o rest,
  pk_done K ps = true -> eue_run P I e r (os_ibke os) m = Ret (e', Ok o, rest) ->
  latke_run P I K (Latke ssid pf rl ps (Some e) tr) r os m =
  Ret (Latke ssid pf rl ps (Some e') (latke_absorb tr m o), o).
Proof.
  intros pf rl ps e tr r os m e' o rest D R. unfold latke_run, latke_pake. cbn [l_pake]. rewrite D. cbn [negb obind].
  unfold latke_eue. cbn [l_ibke obind]. unfold latke_eue_run. rewrite R. cbn [obind unwrap_ok]. reflexivity.
Qed.
Lemma eue_m_run_inv : forall e rr m e' o, m_run (eue_machine P I) e rr m = Ret (e', Ok o) ->
  exists rest, eue_run P I e (fst rr) (snd rr) m = Ret (e', Ok o, rest).
Proof.
  intros e rr m e' o R. cbn [eue_machine m_run m_st m_err] in R.
  destruct (eue_run P I e (fst rr) (snd rr) m) as [[[e1 o1] rest]|] eqn:ER; [|discriminate R].
  cbn [obind] in R. apply (f_equal (fun x => match x with Ret y => y | Panic => (e1, o1) end)) in R. exists rest. f_equal. f_equal. exact R.
Qed.
Lemma phase2 : forall outs f t tape pI pR eI eR msg trI trR eI' eR',
  pk_done K pI = true -> pk_done K pR = true ->
  drive (eue_machine P I) f t (itape tape) eI eR msg = Res Completed outs eI' eR' ->
  exists trI' trR',
    drive LM f t tape (LI pI (Some eI) trI) (LR pR (Some eR) trR) msg =
    @Res LM Completed outs (LI pI (Some eI') trI') (LR pR (Some eR') trR').
Proof.
  induction outs as [|o outs IH]; intros f t tape pI pR eI eR msg trI trR eI' eR' DI DR H.
  - apply drive_nil_inv in H. destruct H as [f' [-> [D [-> ->]]]]. exists trI, trR.
    destruct t; cbn [sel] in D; [apply drive_done_I|apply drive_done_R]; exact D.
  - apply drive_inv in H. destruct H as [f' [e' [-> [D [R H]]]]].
    assert (ER : exists rest, eue_run P I (sel t eI eR) (fst (tape O)) (os_ibke (snd (tape O))) msg = Ret (e', Ok o, rest)).
    { apply eue_m_run_inv in R. exact R. }
    destruct ER as [rest ER].
    set (trI1 := match t with Initiator => latke_absorb trI msg o | Responder => trI end).
    set (trR1 := match t with Initiator => trR | Responder => latke_absorb trR msg o end).
    change (shift (itape tape)) with (itape (shift tape)) in H.
    destruct (IH _ _ _ pI pR _ _ _ trI1 trR1 _ _ DI DR H) as [trI' [trR' X]]. exists trI', trR'.
    unfold trI1, trR1 in X.
    destruct t; cbn [sel flip] in *.
    + eapply drive_I; [exact D| |exact X]. cbn [latke_machine m_run]. rewrite (latke_run_eue _ _ _ _ _ _ _ _ _ _ _ DI ER). reflexivity.
    + eapply drive_R; [exact D| |exact X]. cbn [latke_machine m_run]. rewrite (latke_run_eue _ _ _ _ _ _ _ _ _ _ _ DR ER). reflexivity.
Qed.

(** ** Between the phases: the steps that create the encrypted IBKE. *)
Lemma latke_run_finish : forall pf rl ps tr r os m ps' k e1 r1,
  pk_done K ps = false -> pk_run K ps (os_pake os) m = Ret (ps', Ok None) -> pk_done K ps' = true ->
  pk_fin K ps' = Ret k ->
  eue_new P I r ssid (pf_mpk pf) (pf_cert pf) (pf_usk pf) rl k = Ret (e1, r1) ->
  latke_run P I K (Latke ssid pf rl ps None tr) r os m =
  match rl with
  | Initiator => let! (e', o) := latke_eue_run P I e1 r1 os [] in
                 Ret (Latke ssid pf rl ps' (Some e') (latke_absorb tr m o), o)
  | Responder => Ret (Latke ssid pf rl ps' (Some e1) (latke_absorb tr m None), None)
  end.
Proof.
  intros pf rl ps tr r os m ps' k e1 r1 D R D' FK EN. unfold latke_run, latke_pake. cbn [l_pake]. rewrite D. cbn [negb].
  rewrite R. cbn [obind unwrap_ok]. rewrite D'. unfold latke_eue. cbn [l_ibke l_ssid l_pwfile l_role]. rewrite FK. cbn [obind]. rewrite EN. cbn [obind].
  destruct rl; reflexivity.
Qed.
Lemma latke_run_create : forall pf rl ps tr r os m k e1 r1 e' o rest,
  pk_done K ps = true -> pk_fin K ps = Ret k ->
  eue_new P I r ssid (pf_mpk pf) (pf_cert pf) (pf_usk pf) rl k = Ret (e1, r1) ->
  eue_run P I e1 r1 (os_ibke os) m = Ret (e', Ok o, rest) ->
  latke_run P I K (Latke ssid pf rl ps None tr) r os m =
  Ret (Latke ssid pf rl ps (Some e') (latke_absorb tr m o), o).
Proof.
  intros pf rl ps tr r os m k e1 r1 e' o rest D FK EN ER. unfold latke_run, latke_pake. cbn [l_pake]. rewrite D. cbn [negb obind].
  unfold latke_eue. cbn [l_ibke l_ssid l_pwfile l_role]. rewrite FK. cbn [obind]. rewrite EN. cbn [obind].
  unfold latke_eue_run. rewrite ER. cbn [obind unwrap_ok]. reflexivity.
Qed.

(** ** The whole run *)
Section Whole.
Variables (ms : list bytes) (tape : nat -> rng * rng) (k : bytes).
(** The call in which the IBKE's first step happens: the first even one from the end of the PAKE's messages. *)
Definition ibke_start (n : nat) : nat := if Nat.even n then n else S n.
(** The call in which the responder creates its IBKE session. *)
Definition resp_start (n : nat) : nat := if Nat.even n then S n else n.
Let a := ibke_start (List.length ms).
Let nI := ik_new I (fst (tape a)) ssid (pf_mpk pfI) (pf_cert pfI) (pf_usk pfI) Initiator.
Let nR := ik_new I (fst (tape (resp_start (List.length ms)))) ssid (pf_mpk pfR) (pf_cert pfR) (pf_usk pfR) Responder.
(** The randomness of the inner IBKE run: that of the later calls, after new_session took its part. *)
Definition inner_tape : nat -> rng * rng := fun j =>
  (match j with
   | O => snd nI
   | S O => if Nat.even (List.length ms) then snd nR else fst (tape (S a))
   | _ => fst (tape (a + j)%nat)
   end, os_ibke (snd (tape (a + j)%nat))).

Lemma latke_sim : forall pI0 pR0 pI pR F outs F2 qI qR trI trR,
  honest_run (pake_machine K) F (ptape tape) pI0 pR0 = Res Completed (map Some ms ++ [None]) pI pR ->
  pk_done K pI = true -> pk_done K pR = true -> pk_fin K pI = Ret k -> pk_fin K pR = Ret k -> List.length k = 32%nat ->
  honest_run (ibke_machine I) F2 inner_tape (fst nI) (fst nR) = Res Completed outs qI qR -> (2 <= List.length outs)%nat ->
  exists ws eI eR trI' trR',
    honest_run LM (a + F2) tape (LI pI0 None trI) (LR pR0 None trR) =
      @Res LM Completed (map Some ms ++ (if Nat.even (List.length ms) then [] else [None]) ++ ws)
        (LI pI (Some eI) trI') (LR pR (Some eR) trR') /\
    e_sess eI = qI /\ e_sess eR = qR /\ wires P k ssid 0 outs ws.
Proof.
  intros pI0 pR0 pI pR F outs F2 qI qR trI trR PK DI DR FI FR LK IB LO.
  unfold honest_run in PK, IB |- *.
  destruct (phase1 ms Initiator tape pI0 pR0 [] trI trR pI pR F PK) as [F' [p1 [p2 [t' [msg' [tr1 [tr2 [T [PD LD]]]]]]]]].
  apply drive_inv in PD. destruct PD as [F'' [s' [-> [D [R PD]]]]]. apply drive_nil_inv in PD. destruct PD as [_ [_ [_ [EI ER]]]].
  cbn [pake_machine m_done m_run m_st] in D, R. unfold ptape, shiftn in R. cbn [snd] in R. rewrite Nat.add_0_r in R.
  destruct (eue_new_at P I (fst (tape a)) ssid (pf_mpk pfI) (pf_cert pfI) (pf_usk pfI) Initiator k LK) as [eI0 [NI AI]]. fold nI in NI, AI.
  destruct (eue_new_at P I (fst (tape (resp_start (List.length ms)))) ssid (pf_mpk pfR) (pf_cert pfR) (pf_usk pfR) Responder k LK) as [eR0 [NR AR]]. fold nR in NR, AR.
  pose proof (eue_drive P I k ssid F2 0 Initiator inner_tape (fst nI) (fst nR) eI0 eR0 [] []) as SR.
  destruct SR as [SS [SW [SI1 SR1]]]; [cbn [in_step sel]; auto|].
  rewrite IB in SS, SW, SI1, SR1. cbn [r_status r_outs r_init r_resp] in *.
  destruct (drive (eue_machine P I) F2 Initiator inner_tape eI0 eR0 []) as [st ws eI eR] eqn:ED. cbn [r_status r_outs r_init r_resp] in *. subst st.
  assert (LW : (2 <= List.length ws)%nat).
  { assert (X : forall l l' n, wires P k ssid n l l' -> List.length l = List.length l').
    { induction l as [|x l IH]; intros [|y l'] n H; cbn in H; try tauto. cbn. f_equal. apply (IH _ (S n)). tauto. }
    rewrite <- (X _ _ _ SW). exact LO. }
  destruct ws as [|w0 [|w1 ws]]; cbn in LW; try lia.
  (* the first two steps of the encrypted IBKE *)
  apply drive_inv in ED. destruct ED as [f1 [eI1 [-> [D0 [R0 ED]]]]].
  apply drive_inv in ED. destruct ED as [f2 [eR1 [-> [D1 [R1 ED]]]]]. cbn [sel flip] in *.
  cbn [eue_machine m_run m_done m_st] in R0, R1.
  destruct (eue_run P I eI0 _ _ []) as [[[ea oa] ra]|] eqn:E0 in R0; [|discriminate R0]. cbn [obind] in R0. injection R0 as -> ->.
  destruct (eue_run P I eR0 _ _ _) as [[[eb ob] rb]|] eqn:E1 in R1; [|discriminate R1]. cbn [obind] in R1. injection R1 as -> ->.
  unfold shift in E1. unfold inner_tape in E0, E1. cbn [fst snd] in E0, E1. rewrite Nat.add_0_r in E0.
  replace (a + 1)%nat with (S a) in E1 by lia.
  change (shift (shift inner_tape)) with (itape (shiftn (S (S a)) tape)) in ED || idtac.
  assert (TE : forall j, shift (shift inner_tape) j = itape (shiftn (S (S a)) tape) j).
  { intro j. unfold shift, inner_tape, itape, shiftn. cbn [fst snd]. replace (a + S (S j))%nat with (S (S a) + j)%nat by lia. reflexivity. }
  rewrite (drive_ext _ _ _ _ (itape (shiftn (S (S a)) tape))) in ED by (intros; apply TE). clear TE.
  destruct (Nat.even (List.length ms)) eqn:EV; subst t'; cbn [flip sel] in *.
  - (* the initiator finished the PAKE *)
    assert (EA : a = List.length ms) by (unfold a, ibke_start; rewrite EV; reflexivity).
    assert (ERS : resp_start (List.length ms) = S a) by (unfold resp_start; rewrite EV, EA; reflexivity). rewrite ERS in NR.
    subst pI p2. rewrite EA in *. clear EA.
    set (n := List.length ms) in *.
    destruct (phase2 ws f2 Initiator (shiftn (S (S n)) tape) s' pR eI1 eR1 (opt_bytes w1) (latke_absorb tr1 msg' w0) (latke_absorb tr2 (opt_bytes w0) w1) eI eR DI DR ED) as [trI' [trR' PH]].
    exists (w0 :: w1 :: ws), eI, eR, trI', trR'. split; [|repeat split; assumption].
    rewrite (drive_ext LM f2 _ _ (shift (shift (shiftn n tape)))) in PH by (intros j _; unfold shift, shiftn; f_equal; lia).
    assert (S1 : drive LM (S (S f2)) Initiator (shiftn n tape) (LI p1 None tr1) (LR pR None tr2) msg' = @Res LM Completed (w0 :: w1 :: ws) (LI s' (Some eI) trI') (LR pR (Some eR) trR')).
    { eapply drive_I; [reflexivity| |eapply drive_R; [reflexivity| |exact PH]].
      - cbn [latke_machine m_run]. unfold shiftn. rewrite Nat.add_0_r. rewrite (latke_run_finish _ _ _ _ _ _ _ _ _ _ _ D R DI FI NI). unfold latke_eue_run. rewrite E0. reflexivity.
      - cbn [latke_machine m_run]. unfold shiftn, shift. replace (n + 1)%nat with (S n) by lia. rewrite (latke_run_create _ _ _ _ _ _ _ _ _ _ _ _ _ DR FR NR E1). reflexivity. }
    specialize (LD (S (S f2))). cbn zeta in LD. rewrite S1 in LD. cbn [r_status r_outs r_init r_resp] in LD. exact LD.
  - (* the responder finished the PAKE *)
    assert (EA : a = S (List.length ms)) by (unfold a, ibke_start; rewrite EV; reflexivity).
    assert (ERS : resp_start (List.length ms) = List.length ms) by (unfold resp_start; rewrite EV; reflexivity). rewrite ERS in NR.
    subst pR p1. rewrite EA in *. clear EA.
    set (n := List.length ms) in *.
    destruct (phase2 ws f2 Initiator (shiftn (S (S (S n))) tape) pI s' eI1 eR1 (opt_bytes w1) (latke_absorb tr1 [] w0) (latke_absorb (latke_absorb tr2 msg' None) (opt_bytes w0) w1) eI eR DI DR ED) as [trI' [trR' PH]].
    exists (w0 :: w1 :: ws), eI, eR, trI', trR'. split; [|repeat split; assumption].
    rewrite (drive_ext LM f2 _ _ (shift (shift (shift (shiftn n tape))))) in PH by (intros j _; unfold shift, shiftn; f_equal; lia).
    assert (S1 : drive LM (S (S (S f2))) Responder (shiftn n tape) (LI pI None tr1) (LR p2 None tr2) msg' = @Res LM Completed (None :: w0 :: w1 :: ws) (LI pI (Some eI) trI') (LR s' (Some eR) trR')).
    { eapply drive_R; [reflexivity| |eapply drive_I; [reflexivity| |eapply drive_R; [| |exact PH]]].
      - cbn [latke_machine m_run]. unfold shiftn. rewrite Nat.add_0_r. rewrite (latke_run_finish _ _ _ _ _ _ _ _ _ _ _ D R DR FR NR). cbn [obind]. reflexivity.
      - cbn [latke_machine m_run opt_bytes]. unfold shiftn, shift. replace (n + 1)%nat with (S n) by lia. rewrite (latke_run_create _ _ _ _ _ _ _ _ _ _ _ _ _ DI FI NI E0). cbn [obind]. reflexivity.
      - exact D1.
      - cbn [latke_machine m_run]. unfold shiftn, shift. replace (n + 2)%nat with (S (S n)) by lia. rewrite (latke_run_eue _ _ _ _ _ _ _ _ _ _ _ DR E1). cbn [obind]. reflexivity. }
    specialize (LD (S (S (S f2)))). cbn zeta in LD. rewrite S1 in LD. cbn [r_status r_outs r_init r_resp] in LD.
    replace (S n + S (S f2))%nat with (n + S (S (S f2)))%nat by lia. exact LD.
Qed.
End Whole.
End SIM.
