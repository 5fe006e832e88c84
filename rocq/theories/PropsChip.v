(** * PropsChip: CHIP (C36, C40-C42, and its part of C37). *)
From Coq Require Import ZArith List Lia Bool String.
From Verif Require Import Base Crypto Symmetric PropsSym Driver Pakes PropsPake LatkeSim PropsLatke PropsLatke2 IbkeToy Chip.
Import ListNotations.
Open Scope Z_scope.
Local Opaque bytes_of.

(** The first message of a party: its long-term point and its ephemeral point. *)
Definition chip_hello (G : group) (X R : point G) : bytes := compress G X ++ compress G R.
(** The long-term secret in a password file: x + H(id, X) * y. *)
Definition chip_secret (P : prims) (G : group) (pw id : bytes) (x : scalar G) : scalar G :=
  s_add G x (s_mul G (s_from_hash P G ([2] ++ id ++ compress G (g_base G x))) (s_from_hash P G ([1] ++ pw))).
(** What two honest parties with long-term scalars xI, xR and ephemeral scalars rI, rR both feed
    to the PAKE: the two shared points, and the two first messages in the order sent. *)
Definition chip_shared (P : prims) (G : group) (pw idI idR : bytes) (xI rI xR rR : scalar G) : bytes :=
  compress G (g_base G (s_mul G rI rR)) ++
  compress G (g_base G (s_mul G (s_add G rI (chip_secret P G pw idI xI)) (s_add G rR (chip_secret P G pw idR xR)))) ++
  chip_hello G (g_base G xI) (g_base G rI) ++ chip_hello G (g_base G xR) (g_base G rR).

Lemma chip_hello_length : forall G X R, List.length (chip_hello G X R) = 64%nat.
Proof. intros. unfold chip_hello. rewrite app_length, !compress_length. reflexivity. Qed.
Lemma chip_gen_spec : forall P G r pw id, let x := fst (s_random G r) in
  chip_gen_pwfile P G r pw id = ChipPw (g_base G x) (g_base G (s_from_hash P G ([1] ++ pw))) (chip_secret P G pw id x).
Proof. intros P G r pw id x. unfold chip_gen_pwfile, x. destruct (s_random G r) as [y r']. reflexivity. Qed.

(** chip.rs 152-190 on a well-formed message. *)
Definition chip_input (P : prims) (G : group) (pf : chip_pwfile G) (other : bytes) (r : scalar G) (X R : point G) (tr : bytes) : bytes :=
  compress G (g_mul G R r) ++
  compress G (g_mul G (g_add G (g_add G R X) (g_mul G (cp_Y pf) (s_from_hash P G ([2] ++ other ++ compress G X)))) (s_add G r (cp_xhat pf))) ++ tr.
Lemma chip_step_2_ok : forall P G K s X R, group_laws G ->
  chip_step_2 P G K s (chip_hello G X R) =
  Ret (chip_push G K s (chip_hello G X R),
       chip_input P G (ch_pwfile s) (ch_other s) (ch_r s) X R
         (if role_eqb (ch_role s) Initiator then chip_zip (ch_sent s) (ch_recv s ++ [chip_hello G X R])
          else chip_zip (ch_recv s ++ [chip_hello G X R]) (ch_sent s))).
Proof.
  intros P G K s X R L. unfold chip_step_2. change (split_at 32 (chip_hello G X R)) with (split_at 32 (compress G X ++ compress G R)). rewrite split_at_app by apply compress_length. cbn [obind].
  rewrite compress_length. cbn [Nat.eqb assert_]. rewrite !decompress_compress by exact L. cbn [obind]. reflexivity.
Qed.
Lemma chip_step_2_inv : forall P G K s m s' w, group_laws G -> chip_step_2 P G K s m = Ret (s', w) ->
  exists X R, m = chip_hello G X R.
Proof.
  intros P G K s m s' w L H. unfold chip_step_2 in H.
  destruct (split_at 32 m) as [[Xb Rb]|] eqn:E; cbn [obind] in H; [|discriminate H].
  destruct (List.length Rb =? 32)%nat; cbn [assert_] in H; [|discriminate H].
  destruct (decompress G Xb) as [X|] eqn:E1; cbn [obind] in H; [|discriminate H].
  destruct (decompress G Rb) as [R|] eqn:E2; cbn [obind] in H; [|discriminate H].
  apply decompress_inv in E1; [|exact L]. apply decompress_inv in E2; [|exact L]. subst Xb Rb.
  apply split_at_inv in E. destruct E as [-> _]. exists X, R. reflexivity.
Qed.

(** The two sides compute the same input. *)
Lemma chip_input_I : forall P G pw idI idR xI rI xR rR, group_laws G ->
  chip_input P G (ChipPw (g_base G xI) (g_base G (s_from_hash P G ([1] ++ pw))) (chip_secret P G pw idI xI)) idR rI (g_base G xR) (g_base G rR)
    (chip_hello G (g_base G xI) (g_base G rI) ++ chip_hello G (g_base G xR) (g_base G rR))
  = chip_shared P G pw idI idR xI rI xR rR.
Proof.
  intros P G pw idI idR xI rI xR rR L. unfold chip_input, chip_shared. cbn [cp_Y cp_xhat].
  rewrite !(gl_base_mul G L), !(gl_base_add G L), !(gl_base_mul G L). f_equal; [|f_equal].
  - rewrite (gl_smul_comm G L). reflexivity.
  - f_equal. f_equal. rewrite (gl_smul_comm G L). f_equal.
    unfold chip_secret. rewrite (gl_smul_comm G L (s_from_hash P G ([1] ++ pw))). symmetry. apply (gl_sadd_assoc G L).
Qed.
Lemma chip_input_R : forall P G pw idI idR xI rI xR rR, group_laws G ->
  chip_input P G (ChipPw (g_base G xR) (g_base G (s_from_hash P G ([1] ++ pw))) (chip_secret P G pw idR xR)) idI rR (g_base G xI) (g_base G rI)
    (chip_hello G (g_base G xI) (g_base G rI) ++ chip_hello G (g_base G xR) (g_base G rR))
  = chip_shared P G pw idI idR xI rI xR rR.
Proof.
  intros P G pw idI idR xI rI xR rR L. unfold chip_input, chip_shared. cbn [cp_Y cp_xhat].
  rewrite !(gl_base_mul G L), !(gl_base_add G L), !(gl_base_mul G L). f_equal. f_equal.
  f_equal. f_equal. f_equal.
  unfold chip_secret. rewrite (gl_smul_comm G L (s_from_hash P G ([1] ++ pw))). symmetry. apply (gl_sadd_assoc G L).
Qed.

(** The PAKE inside CHIP once both sides have created it. *)
Definition chip_with (G : group) (K : pake) (s : chip G K) (p : PST K) (k : nat) : chip G K :=
  Chip (ch_pwfile s) (ch_ssid s) (ch_other s) (ch_role s) (ch_r s) (Some p) (ch_sent s) (ch_recv s) (4 + k).
Lemma chip_run_with : forall P G K s p k r os m p' o,
  pk_run K p os m = Ret (p', Ok o) ->
  chip_run P G K (chip_with G K s p k) r os m = Ret (chip_with G K s p' (k + 2), Ok o).
Proof.
  intros P G K s p k r os m p' o E.
  change (chip_run P G K (chip_with G K s p k) r os m) with
    (let! (p', o) := pk_run K p os m in
     match o with Ok out => Ret (chip_next G K (chip_set G K (chip_with G K s p k) p'), Ok out)
                | Err e => Ret (chip_set G K (chip_with G K s p k) p', Err e) end).
  rewrite E. reflexivity.
Qed.
Lemma relay_some : forall (M : machine) f t tape sI sR msg s' m st outs a b,
  m_run M (sel t sI sR) (tape O) msg = Ret (s', Ok (Some m)) ->
  relay M f (flip t) (shift tape) (sel t s' sI) (sel t sR s') m = Res st outs a b ->
  relay M (S f) t tape sI sR msg = Res st (Some m :: outs) a b.
Proof. intros M f t tape sI sR msg s' m st outs a b R H. cbn [relay]. rewrite R, H. reflexivity. Qed.
Lemma relay_none : forall (M : machine) f t tape sI sR msg s',
  m_run M (sel t sI sR) (tape O) msg = Ret (s', Ok None) ->
  relay M (S f) t tape sI sR msg = Res Completed [None] (sel t s' sI) (sel t sR s').
Proof. intros M f t tape sI sR msg s' R. cbn [relay]. rewrite R. reflexivity. Qed.

Lemma chip_relay_pake : forall P G K sI sR ms f t tape pI pR fI fR m kI kR,
  drive (pake_machine K) f t tape pI pR m = Res Completed (map Some ms ++ [None]) fI fR ->
  exists kI' kR', relay (chip_machine P G K) f t tape (chip_with G K sI pI kI) (chip_with G K sR pR kR) m =
    @Res (chip_machine P G K) Completed (map Some ms ++ [None]) (chip_with G K sI fI kI') (chip_with G K sR fR kR').
Proof.
  intros P G K sI sR ms. induction ms as [|m1 ms IH]; intros f t tape pI pR fI fR m kI kR H; cbn [map app] in H |- *;
    apply drive_inv in H; destruct H as [f' [p' [-> [D [R H]]]]].
  - apply drive_nil_inv in H. destruct H as [f2 [-> [_ [-> ->]]]].
    destruct t; cbn [sel m_run pake_machine] in *.
    + exists (kI + 2)%nat, kR. apply (relay_none (chip_machine P G K) _ Initiator). apply (chip_run_with P G K sI _ _ _ _ _ _ _ R).
    + exists kI, (kR + 2)%nat. apply (relay_none (chip_machine P G K) _ Responder). apply (chip_run_with P G K sR _ _ _ _ _ _ _ R).
  - destruct t; cbn [sel m_run pake_machine flip opt_bytes] in *.
    + destruct (IH _ _ _ _ _ _ _ _ (kI + 2)%nat kR H) as [a [b E]]. exists a, b.
      apply (relay_some (chip_machine P G K) _ Initiator _ _ _ _ _ _ _ _ _ _ (chip_run_with P G K sI _ _ _ _ _ _ _ R)). exact E.
    + destruct (IH _ _ _ _ _ _ _ _ kI (kR + 2)%nat H) as [a [b E]]. exists a, b.
      apply (relay_some (chip_machine P G K) _ Responder _ _ _ _ _ _ _ _ _ _ (chip_run_with P G K sR _ _ _ _ _ _ _ R)). exact E.
Qed.

(* ---------------------------------------------------------------- C36 *)
(** For every correct PAKE of at least one message: the relay loop ends after two more messages
    than the PAKE has, both parties ran the PAKE on the same input, and they agree. *)
Theorem chip_agreement : forall P G K n okK pw idI idR rgI rgR ssid rI rR tape,
  group_laws G -> pake_correct K n okK -> (1 <= n)%nat ->
  okK ssid (chip_shared P G pw idI idR (fst (s_random G rgI)) (fst (s_random G (fst (tape 0%nat))))
              (fst (s_random G rgR)) (fst (s_random G (fst (tape 1%nat)))))
    (fun j => snd (tape (2 + j)%nat)) ->
  exists ms fI fR key,
    relay (chip_machine P G K) (n + 4) Initiator tape
      (fst (chip_new G K rI ssid (chip_gen_pwfile P G rgI pw idI) Initiator idR))
      (fst (chip_new G K rR ssid (chip_gen_pwfile P G rgR pw idR) Responder idI)) []
      = @Res (chip_machine P G K) Completed (map Some ms ++ [None]) fI fR /\
    List.length ms = (n + 2)%nat /\
    chip_fin G K fI = Ret key /\ chip_fin G K fR = Ret key /\ List.length key = 32%nat.
Proof.
  intros P G K n okK pw idI idR rgI rgR ssid rI rR tape L CK N OK.
  set (xI := fst (s_random G rgI)) in *. set (xR := fst (s_random G rgR)) in *.
  set (eI := fst (s_random G (fst (tape 0%nat)))) in *. set (eR := fst (s_random G (fst (tape 1%nat)))) in *.
  set (w := chip_shared P G pw idI idR xI eI xR eR) in *.
  destruct (CK ssid w (fst (tape 2%nat)) (fst (tape 3%nat)) (fun j => tape (2 + j)%nat) OK) as
    [pI [rI' [pR [rR' [ms [qI [qR [k [NI [NR [PK [LM [DI [DR [FI [FR LK]]]]]]]]]]]]]]]].
  rewrite !chip_gen_spec. fold xI xR.
  set (pfI := ChipPw (g_base G xI) (g_base G (s_from_hash P G ([1] ++ pw))) (chip_secret P G pw idI xI)).
  set (pfR := ChipPw (g_base G xR) (g_base G (s_from_hash P G ([1] ++ pw))) (chip_secret P G pw idR xR)).
  set (m1 := chip_hello G (g_base G xI) (g_base G eI)). set (m2 := chip_hello G (g_base G xR) (g_base G eR)).
  destruct ms as [|p1 ms]; [cbn in LM; lia|].
  assert (E0 : forall os, chip_run P G K (fst (chip_new G K rI ssid pfI Initiator idR)) (fst (tape 0%nat)) os [] =
    Ret (Chip pfI ssid idR Initiator eI None [m1] [] 2, Ok (Some m1))).
  { intro os. unfold chip_run, chip_new. destruct (s_random G rI) as [z rz]. cbn [fst ch_step first_step]. unfold chip_step_1.
    unfold eI, m1, eI, chip_hello. destruct (s_random G (fst (tape 0%nat))) as [e re]. reflexivity. }
  assert (E1 : forall os, chip_run P G K (fst (chip_new G K rR ssid pfR Responder idI)) (fst (tape 1%nat)) os m1 =
    Ret (Chip pfR ssid idI Responder eR None [m2] [m1] 3, Ok (Some m2))).
  { intro os. unfold chip_run, chip_new. destruct (s_random G rR) as [z rz]. cbn [fst ch_step first_step]. unfold chip_step_1.
    unfold eR, m2, eR, chip_hello. destruct (s_random G (fst (tape 1%nat))) as [e re]. reflexivity. }
  unfold honest_run in PK. cbn [map app] in PK.
  apply drive_inv in PK. destruct PK as [f1 [pI1 [F1 [_ [RN1 PK]]]]]. cbn [sel flip opt_bytes m_run pake_machine] in RN1, PK.
  assert (E2 : chip_run P G K (Chip pfI ssid idR Initiator eI None [m1] [] 2) (fst (tape 2%nat)) (snd (tape 2%nat)) m2 =
    Ret (chip_with G K (Chip pfI ssid idR Initiator eI None [m1] [m2; m2] 2) pI1 0, Ok (Some p1))).
  { unfold chip_run. cbn [ch_step]. unfold m2 at 2. rewrite chip_step_2_ok by exact L. fold m2. cbn [obind].
    unfold chip_push. cbn [ch_pwfile ch_ssid ch_other ch_role ch_r ch_pake ch_sent ch_recv ch_step role_eqb app].
    unfold chip_zip. cbn [map2 List.concat]. rewrite app_nil_r. unfold pfI at 2. unfold m1 at 2, m2 at 2. rewrite chip_input_I by exact L.
    unfold chip_start. cbn [ch_ssid]. fold w. rewrite NI. cbn [obind]. change (tape (2 + 0)%nat) with (tape 2%nat) in RN1. rewrite RN1. reflexivity. }
  (* the second call of the PAKE *)
  assert (X : exists o2 rest f2 pR1, map Some ms ++ [None] = o2 :: rest /\ f1 = S f2 /\
     pk_run K pR (snd (tape 3%nat)) p1 = Ret (pR1, Ok o2) /\
     drive (pake_machine K) f2 Initiator (shift (shift (fun j => tape (2 + j)%nat))) pI1 pR1 (opt_bytes o2) = @Res (pake_machine K) Completed rest qI qR).
  { destruct (map Some ms ++ [None]) as [|o2 rest] eqn:EM; [destruct ms; discriminate EM|]. 
    apply drive_inv in PK. destruct PK as [f2 [pR1 [-> [_ [RN2 PK]]]]]. exists o2, rest, f2, pR1. auto. }
  destruct X as [o2 [rest [f2 [pR1 [EM [-> [RN2 PK2]]]]]]].
  assert (E3 : chip_run P G K (Chip pfR ssid idI Responder eR None [m2] [m1] 3) (fst (tape 3%nat)) (snd (tape 3%nat)) p1 =
    Ret (chip_with G K (Chip pfR ssid idI Responder eR None [m2] [m1; m1] 3) pR1 1, Ok o2)).
  { unfold chip_run. cbn [ch_step ch_recv rev app unwrap obind]. unfold m1 at 2. rewrite chip_step_2_ok by exact L. fold m1. cbn [obind].
    unfold chip_push. cbn [ch_pwfile ch_ssid ch_other ch_role ch_r ch_pake ch_sent ch_recv ch_step role_eqb app].
    unfold chip_zip. cbn [map2 List.concat]. rewrite app_nil_r. unfold pfR at 2. unfold m1 at 2, m2 at 2. rewrite chip_input_R by exact L.
    unfold chip_start. cbn [ch_ssid]. fold w. rewrite NR. cbn [obind]. rewrite RN2. reflexivity. }
  cbn in LM. assert (F2 : exists f3, (n + 4 = S (S (S (S f3))))%nat /\ f2 = f3).
  { exists f2. split; [lia|reflexivity]. }
  destruct F2 as [f3 [EF <-]]. rewrite EF.
  destruct ms as [|p2 ms].
  - cbn [map app] in EM. injection EM as <- <-. apply drive_nil_inv in PK2. destruct PK2 as [f4 [_ [_ [-> ->]]]].
    eexists [m1; m2; p1], _, _, k. split; [|split; [cbn in LM |- *; lia|]].
    + apply (relay_some (chip_machine P G K) _ Initiator _ _ _ _ _ _ _ _ _ _ (E0 _)).
      apply (relay_some (chip_machine P G K) _ Responder _ _ _ _ _ _ _ _ _ _ (E1 _)).
      apply (relay_some (chip_machine P G K) _ Initiator _ _ _ _ _ _ _ _ _ _ E2).
      apply (relay_none (chip_machine P G K) _ Responder _ _ _ _ _ E3).
    + split; [exact FI|]. split; [exact FR|exact LK].
  - cbn [map app] in EM. injection EM as <- <-. cbn [opt_bytes] in PK2.
    destruct (chip_relay_pake P G K (Chip pfI ssid idR Initiator eI None [m1] [m2; m2] 2) (Chip pfR ssid idI Responder eR None [m2] [m1; m1] 3)
      ms _ _ _ _ _ _ _ _ 0%nat 1%nat PK2) as [kI [kR RL]].
    eexists (m1 :: m2 :: p1 :: p2 :: ms), _, _, k. split; [|split; [cbn in LM |- *; lia|]].
    + apply (relay_some (chip_machine P G K) _ Initiator _ _ _ _ _ _ _ _ _ _ (E0 _)).
      apply (relay_some (chip_machine P G K) _ Responder _ _ _ _ _ _ _ _ _ _ (E1 _)).
      apply (relay_some (chip_machine P G K) _ Initiator _ _ _ _ _ _ _ _ _ _ E2).
      apply (relay_some (chip_machine P G K) _ Responder _ _ _ _ _ _ _ _ _ _ E3). exact RL.
    + split; [exact FI|]. split; [exact FR|exact LK].
Qed.
(** The pairing of the repository's test, and every other shipped PAKE. *)
Theorem chip_kc_spake2 : forall P G S, group_laws G -> spake_correct S ->
  forall pw idI idR rgI rgR ssid rI rR tape, exists ms fI fR key,
    relay (chip_machine P G (KcSpakePake P S)) 7 Initiator tape
      (fst (chip_new G (KcSpakePake P S) rI ssid (chip_gen_pwfile P G rgI pw idI) Initiator idR))
      (fst (chip_new G (KcSpakePake P S) rR ssid (chip_gen_pwfile P G rgR pw idR) Responder idI)) []
      = @Res (chip_machine P G (KcSpakePake P S)) Completed (map Some ms ++ [None]) fI fR /\
    List.length ms = 5%nat /\
    chip_fin G (KcSpakePake P S) fI = Ret key /\ chip_fin G (KcSpakePake P S) fR = Ret key /\ List.length key = 32%nat.
Proof.
  intros P G S L SC pw idI idR rgI rgR ssid rI rR tape.
  exact (chip_agreement P G (KcSpakePake P S) 3 _ pw idI idR rgI rgR ssid rI rR tape L (kc_spake2_pake_correct P S SC) ltac:(lia) Logic.I).
Qed.
Example chip_meets : group_laws toy_group /\ spake_correct toy_spake.
Proof. split; [exact toy_group_laws|exact toy_spake_correct]. Qed.

(* ---------------------------------------------------------------- C40 *)
(** A session against an arbitrary peer, as its log shows it. *)
Definition is_err {A E} (c : bytes * res A E) : Prop := exists e, snd c = Err e.
Section LOGS.
Variables (P : prims) (G : group) (K : pake).
Hypothesis GL : group_laws G.
Variables (r0 : rng) (ssid other : bytes) (pf : chip_pwfile G).
Let M := chip_machine P G K.
Definition chip_dups (errs : log M) : list bytes := flat_map (fun c => [fst c; fst c]) errs.

(** The initiator: no call yet; hello sent, PAKE not created (every call since then was an
    error); PAKE created from a well-formed message. *)
Definition chip_phase_I (l : log M) (s : chip G K) : Prop :=
  (l = [] /\ s = fst (chip_new G K r0 ssid pf Initiator other)) \/
  (exists a x errs, let m1 := chip_hello G (cp_X pf) (g_base G x) in
    l = (a, Ok (Some m1)) :: errs /\ Forall is_err errs /\
    s = Chip pf ssid other Initiator x None [m1] (chip_dups errs) 2) \/
  (exists a x errs m2 X R o rest r p0 r' p k, let m1 := chip_hello G (cp_X pf) (g_base G x) in
    l = (a, Ok (Some m1)) :: errs ++ (m2, Ok o) :: rest /\ Forall is_err errs /\
    m2 = chip_hello G X R /\
    pk_new K r ssid (chip_input P G pf other x X R (m1 ++ hd m2 (map fst errs))) Initiator = Ret (p0, r') /\
    hist (pake_machine K) p0 (([], Ok o) :: rest) p /\
    s = Chip pf ssid other Initiator x (Some p) [m1] (chip_dups (errs ++ [(m2, Ok o)])) (4 + k)).
Definition chip_phase_R (l : log M) (s : chip G K) : Prop :=
  (l = [] /\ s = fst (chip_new G K r0 ssid pf Responder other)) \/
  (exists m1 x errs, let m2 := chip_hello G (cp_X pf) (g_base G x) in
    l = (m1, Ok (Some m2)) :: errs /\ Forall is_err errs /\
    s = Chip pf ssid other Responder x None [m2] (repeat m1 (1 + List.length errs)) 3) \/
  (exists m1 x errs m X R o rest r p0 r' p k, let m2 := chip_hello G (cp_X pf) (g_base G x) in
    l = (m1, Ok (Some m2)) :: errs ++ (m, Ok o) :: rest /\ Forall is_err errs /\
    m1 = chip_hello G X R /\
    pk_new K r ssid (chip_input P G pf other x X R (m1 ++ m2)) Responder = Ret (p0, r') /\
    hist (pake_machine K) p0 ((m, Ok o) :: rest) p /\
    s = Chip pf ssid other Responder x (Some p) [m2] (repeat m1 (2 + List.length errs)) (4 + k)).

Lemma chip_run_pake_inv : forall a b c d x p sn rc k r os m s' o,
  chip_run P G K (Chip a b c d x (Some p) sn rc (4 + k)) r os m = Ret (s', o) ->
  exists p' k', pk_run K p os m = Ret (p', o) /\ s' = Chip a b c d x (Some p') sn rc (4 + k').
Proof.
  intros a b c d x p sn rc k r os m s' o E.
  change (chip_run P G K (Chip a b c d x (Some p) sn rc (4 + k)) r os m) with
    (let! (p', o) := pk_run K p os m in
     match o with Ok out => Ret (Chip a b c d x (Some p') sn rc (4 + (k + 2)), Ok out)
                | Err e => Ret (Chip a b c d x (Some p') sn rc (4 + k), @Err (option bytes) _ e) end) in E.
  destruct (pk_run K p os m) as [[p' [out|e]]|]; cbn [obind] in E; [| |discriminate E];
    injection E as <- <-; exists p'; [exists (k + 2)%nat|exists k]; split; reflexivity.
Qed.
Lemma chip_start_inv : forall s r os rl w m s' o, chip_start G K s r os rl w m = Ret (s', o) ->
  exists p0 r' p', pk_new K r (ch_ssid s) w rl = Ret (p0, r') /\ pk_run K p0 os m = Ret (p', o) /\
    s' = match o with Ok _ => chip_next G K (chip_set G K s p') | Err _ => s end.
Proof.
  intros s r os rl w m s' o E. unfold chip_start in E.
  destruct (pk_new K r (ch_ssid s) w rl) as [[p0 r']|] eqn:N; cbn [obind] in E; [|discriminate E].
  destruct (pk_run K p0 os m) as [[p' [out|e]]|] eqn:R; cbn [obind] in E; [| |discriminate E];
    injection E as <- <-; exists p0, r', p'; auto.
Qed.
Lemma chip_dups_app : forall a b, chip_dups (a ++ b) = chip_dups a ++ chip_dups b.
Proof. intros. unfold chip_dups. apply flat_map_app. Qed.

Lemma chip_initiator_phases : forall l s,
  hist M (fst (chip_new G K r0 ssid pf Initiator other)) l s -> chip_phase_I l s.
Proof.
  intros l s H. remember (fst (chip_new G K r0 ssid pf Initiator other)) as s0 eqn:S0.
  induction H as [|l s rr msg s' o H IH E]; [left; auto|]. right.
  cbn [m_run M chip_machine] in E.
  destruct IH as [[-> ->] | [[a [x [errs [-> [FE ->]]]]] | [a [x [errs [m2 [X [R [o' [rest [r [p0 [r' [p [k [-> [FE [-> [N [HP ->]]]]]]]]]]]]]]]]]]]].
  - left. unfold chip_new in E. destruct (s_random G r0) as [z rz]. unfold chip_run in E. cbn [fst ch_step first_step] in E.
    unfold chip_step_1 in E. destruct (s_random G (fst rr)) as [x rx]. injection E as <- <-.
    exists msg, x, []. split; [reflexivity|]. split; [constructor|]. reflexivity.
  - unfold chip_run in E. cbn [ch_step] in E.
    destruct (chip_step_2 P G K _ msg) as [[s1 w]|] eqn:E2; cbn [obind] in E; [|discriminate E].
    destruct (chip_step_2_inv _ _ _ _ _ _ _ GL E2) as [X [R ->]]. rewrite chip_step_2_ok in E2 by exact GL. injection E2 as <- <-.
    set (m1 := chip_hello G (cp_X pf) (g_base G x)) in *. set (m2 := chip_hello G X R) in *.
    unfold chip_push in E. cbn [ch_pwfile ch_ssid ch_other ch_role ch_r ch_pake ch_sent ch_recv ch_step role_eqb] in E.
    apply chip_start_inv in E. destruct E as [p0 [r' [p' [N [RN ES]]]]]. cbn [ch_ssid] in N.
    assert (Z : chip_zip [m1] ((chip_dups errs ++ [m2]) ++ [m2]) = m1 ++ hd m2 (map fst errs)).
    { unfold chip_zip. destruct errs as [|[c e] errs]; cbn; rewrite app_nil_r; reflexivity. }
    rewrite Z in N. destruct o as [o|e].
    + right. exists a, x, errs, m2, X, R, o, [], (fst rr), p0, r', p', 0%nat. cbv zeta.
      split; [reflexivity|]. split; [exact FE|]. split; [reflexivity|]. split; [exact N|]. split.
      * apply (hist_run (pake_machine K) p0 [] p0 rr [] p' (Ok o)); [constructor|exact RN].
      * rewrite ES. unfold chip_set, chip_next. cbn [ch_pwfile ch_ssid ch_other ch_role ch_r ch_pake ch_sent ch_recv ch_step].
        rewrite chip_dups_app, <- app_assoc. reflexivity.
    + left. exists a, x, (errs ++ [(m2, Err e)]). cbv zeta. split; [reflexivity|]. split; [apply Forall_app; split; [exact FE|]; constructor; [exists e; reflexivity|constructor]|].
      rewrite ES, chip_dups_app, <- app_assoc. reflexivity.
  - right. apply chip_run_pake_inv in E. destruct E as [p' [k' [RN ->]]].
    exists a, x, errs, (chip_hello G X R), X, R, o', (rest ++ [(msg, o)]), r, p0, r', p', k'. cbv zeta.
    split; [rewrite <- app_comm_cons, <- app_assoc; reflexivity|]. split; [exact FE|]. split; [reflexivity|]. split; [exact N|]. split; [|reflexivity].
    apply (hist_run (pake_machine K) p0 (([], Ok o') :: rest) p rr msg p' o HP RN).
Qed.
Lemma rev_repeat_hd : forall (m : bytes) n, match rev (repeat m (S n)) with x :: _ => Some x | [] => None end = Some m.
Proof.
  intros m n. assert (X : forall k, repeat m k ++ [m] = m :: repeat m k) by (induction k; cbn; congruence).
  cbn [repeat]. cbn [rev].
  assert (Y : forall k, rev (repeat m k) = repeat m k) by (induction k; cbn; [reflexivity|]; rewrite IHk; apply X).
  rewrite Y, X. reflexivity.
Qed.
Lemma chip_responder_phases : forall l s,
  hist M (fst (chip_new G K r0 ssid pf Responder other)) l s -> chip_phase_R l s.
Proof.
  intros l s H. remember (fst (chip_new G K r0 ssid pf Responder other)) as s0 eqn:S0.
  induction H as [|l s rr msg s' o H IH E]; [left; auto|]. right.
  cbn [m_run M chip_machine] in E.
  destruct IH as [[-> ->] | [[m1 [x [errs [-> [FE ->]]]]] | [m1 [x [errs [m [X [R [o' [rest [r [p0 [r' [p [k [-> [FE [-> [N [HP ->]]]]]]]]]]]]]]]]]]]].
  - left. unfold chip_new in E. destruct (s_random G r0) as [z rz]. unfold chip_run in E. cbn [fst ch_step first_step] in E.
    unfold chip_step_1 in E. destruct (s_random G (fst rr)) as [x rx]. injection E as <- <-.
    exists msg, x, []. split; [reflexivity|]. split; [constructor|]. reflexivity.
  - unfold chip_run in E. cbn [ch_step ch_recv] in E. rewrite rev_repeat_hd in E. cbn [unwrap obind] in E.
    destruct (chip_step_2 P G K _ m1) as [[s1 w]|] eqn:E2; cbn [obind] in E; [|discriminate E].
    destruct (chip_step_2_inv _ _ _ _ _ _ _ GL E2) as [X [R ->]]. rewrite chip_step_2_ok in E2 by exact GL. injection E2 as <- <-.
    set (m2 := chip_hello G (cp_X pf) (g_base G x)) in *. set (m1 := chip_hello G X R) in *.
    unfold chip_push in E. cbn [ch_pwfile ch_ssid ch_other ch_role ch_r ch_pake ch_sent ch_recv ch_step role_eqb] in E.
    apply chip_start_inv in E. destruct E as [p0 [r' [p' [N [RN ES]]]]]. cbn [ch_ssid] in N.
    assert (Z : chip_zip (repeat m1 (1 + List.length errs) ++ [m1]) [m2] = m1 ++ m2).
    { unfold chip_zip. cbn [repeat Nat.add app map2]. destruct (repeat m1 (List.length errs) ++ [m1]); cbn [map2 List.concat]; rewrite app_nil_r; reflexivity. }
    assert (N' : pk_new K (fst rr) ssid (chip_input P G pf other x X R (m1 ++ m2)) Responder = Ret (p0, r')) by (rewrite <- Z; exact N). clear N; rename N' into N.
    assert (RP : repeat m1 (1 + List.length errs) ++ [m1] = repeat m1 (2 + List.length errs)).
    { change [m1] with (repeat m1 1). rewrite <- repeat_app. f_equal. lia. }
    destruct o as [o|e].
    + right. exists m1, x, errs, msg, X, R, o, [], (fst rr), p0, r', p', 1%nat. cbv zeta.
      split; [reflexivity|]. split; [exact FE|]. split; [reflexivity|]. split; [exact N|]. split.
      * apply (hist_run (pake_machine K) p0 [] p0 rr msg p' (Ok o)); [constructor|exact RN].
      * rewrite ES. unfold chip_set, chip_next. cbn [ch_pwfile ch_ssid ch_other ch_role ch_r ch_pake ch_sent ch_recv ch_step].
        rewrite <- RP. reflexivity.
    + left. exists m1, x, (errs ++ [(msg, Err e)]). cbv zeta. split; [reflexivity|]. split; [apply Forall_app; split; [exact FE|]; constructor; [exists e; reflexivity|constructor]|].
      rewrite ES. rewrite app_length. cbn [List.length]. rewrite (Nat.add_comm (List.length errs) 1). change (1 + (1 + List.length errs))%nat with (2 + List.length errs)%nat. rewrite <- RP. reflexivity.
  - right. apply chip_run_pake_inv in E. destruct E as [p' [k' [RN ->]]].
    exists (chip_hello G X R), x, errs, m, X, R, o', (rest ++ [(msg, o)]), r, p0, r', p', k'. cbv zeta.
    split; [rewrite <- app_comm_cons, <- app_assoc; reflexivity|]. split; [exact FE|]. split; [reflexivity|]. split; [exact N|]. split; [|reflexivity].
    apply (hist_run (pake_machine K) p0 ((m, Ok o') :: rest) p rr msg p' o HP RN).
Qed.

(** What the PAKE of an initiator was created with, whatever the peer sent: the session's ssid,
    and the input computed from the message that the successful call received; the PAKE then
    saw the empty message followed by every later message of the session. *)
Theorem chip_initiator_input : forall l s p,
  hist M (fst (chip_new G K r0 ssid pf Initiator other)) l s -> ch_pake s = Some p ->
  exists a x errs m2 X R o rest r p0 r', let m1 := chip_hello G (cp_X pf) (g_base G x) in
    l = (a, Ok (Some m1)) :: errs ++ (m2, Ok o) :: rest /\ Forall is_err errs /\
    m2 = chip_hello G X R /\
    pk_new K r ssid (chip_input P G pf other x X R (m1 ++ hd m2 (map fst errs))) Initiator = Ret (p0, r') /\
    hist (pake_machine K) p0 (([], Ok o) :: rest) p.
Proof.
  intros l s p H E. apply chip_initiator_phases in H.
  destruct H as [[-> ->] | [[a [x [errs [-> [FE ->]]]]] | [a [x [errs [m2 [X [R [o' [rest [r [p0 [r' [p' [k [-> [FE [EM [N [HP ->]]]]]]]]]]]]]]]]]]]].
  - unfold chip_new in E. destruct (s_random G r0) as [z rz]. discriminate E.
  - discriminate E.
  - cbn [ch_pake] in E. injection E as <-. exists a, x, errs, m2, X, R, o', rest, r, p0, r'. cbv zeta. auto 10.
Qed.
Theorem chip_responder_input : forall l s p,
  hist M (fst (chip_new G K r0 ssid pf Responder other)) l s -> ch_pake s = Some p ->
  exists m1 x errs m X R o rest r p0 r', let m2 := chip_hello G (cp_X pf) (g_base G x) in
    l = (m1, Ok (Some m2)) :: errs ++ (m, Ok o) :: rest /\ Forall is_err errs /\
    m1 = chip_hello G X R /\
    pk_new K r ssid (chip_input P G pf other x X R (m1 ++ m2)) Responder = Ret (p0, r') /\
    hist (pake_machine K) p0 ((m, Ok o) :: rest) p.
Proof.
  intros l s p H E. apply chip_responder_phases in H.
  destruct H as [[-> ->] | [[a [x [errs [-> [FE ->]]]]] | [a [x [errs [m2 [X [R [o' [rest [r [p0 [r' [p' [k [-> [FE [EM [N [HP ->]]]]]]]]]]]]]]]]]]]].
  - unfold chip_new in E. destruct (s_random G r0) as [z rz]. discriminate E.
  - discriminate E.
  - cbn [ch_pake] in E. injection E as <-. exists a, x, errs, m2, X, R, o', rest, r, p0, r'. cbv zeta. auto 10.
Qed.
(** A message that is not the encoding of two points: an initiator panics on it; a responder
    panics at its next call if its first message was one. *)
Theorem chip_initiator_bad_hello_panics : forall a o s r os m,
  hist M (fst (chip_new G K r0 ssid pf Initiator other)) [(a, Ok o)] s ->
  (forall X R, m <> chip_hello G X R) -> chip_run P G K s r os m = Panic.
Proof.
  intros a o s r os m H NE. apply chip_initiator_phases in H.
  destruct H as [[E _] | [[a' [x [errs [E [FE ->]]]]] | [a' [x [errs [m2 [X [R [o' [rest [r1 [p0 [r' [p' [k [E _]]]]]]]]]]]]]]]]; [discriminate E| |].
  - unfold chip_run. cbn [ch_step]. destruct (chip_step_2 P G K _ m) as [[s1 w]|] eqn:E2; [|reflexivity].
    destruct (chip_step_2_inv _ _ _ _ _ _ _ GL E2) as [X [R EM]]. destruct (NE X R EM).
  - apply (f_equal (@List.length _)) in E. cbn [List.length] in E. rewrite app_length in E. cbn [List.length] in E. lia.
Qed.
Theorem chip_responder_bad_hello_panics : forall m1 o s r os m,
  hist M (fst (chip_new G K r0 ssid pf Responder other)) [(m1, Ok o)] s ->
  (forall X R, m1 <> chip_hello G X R) -> chip_run P G K s r os m = Panic.
Proof.
  intros m1 o s r os m H NE. apply chip_responder_phases in H.
  destruct H as [[E _] | [[a' [x [errs [E [FE ->]]]]] | [a' [x [errs [m2 [X [R [o' [rest [r1 [p0 [r' [p' [k [E _]]]]]]]]]]]]]]]]; [discriminate E| |].
  - injection E as <- -> <-. unfold chip_run. cbn [ch_step ch_recv List.length Nat.add repeat rev app unwrap obind].
    destruct (chip_step_2 P G K _ m1) as [[s1 w]|] eqn:E2; [|reflexivity].
    destruct (chip_step_2_inv _ _ _ _ _ _ _ GL E2) as [X [R EM]]. destruct (NE X R EM).
  - apply (f_equal (@List.length _)) in E. cbn [List.length] in E. rewrite app_length in E. cbn [List.length] in E. lia.
Qed.
End LOGS.

(** Two PAKE inputs agree only if the shared points and both first messages agree. *)
Theorem chip_input_injective : forall P G, group_laws G ->
  forall (pf pf' : chip_pwfile G) other other' x x' X X' R R' m1 m2 m1' m2',
  List.length m1 = 64%nat -> List.length m1' = 64%nat -> 
  chip_input P G pf other x X R (m1 ++ m2) = chip_input P G pf' other' x' X' R' (m1' ++ m2') ->
  m1 = m1' /\ m2 = m2' /\ g_mul G R x = g_mul G R' x' /\
  g_mul G (g_add G (g_add G R X) (g_mul G (cp_Y pf) (s_from_hash P G ([2] ++ other ++ compress G X)))) (s_add G x (cp_xhat pf)) =
  g_mul G (g_add G (g_add G R' X') (g_mul G (cp_Y pf') (s_from_hash P G ([2] ++ other' ++ compress G X')))) (s_add G x' (cp_xhat pf')).
Proof.
  intros P G L pf pf' other other' x x' X X' R R' m1 m2 m1' m2' L1 L2 E. unfold chip_input in E.
  assert (AI : forall a b c d : bytes, List.length a = List.length b -> a ++ c = b ++ d -> a = b /\ c = d).
  { intros a b c d LE H. split; [apply (f_equal (firstn (List.length a))) in H|apply (f_equal (skipn (List.length a))) in H].
    - rewrite LE in H at 2. rewrite !firstn_app, !Nat.sub_diag, !firstn_all in H. cbn [firstn] in H. rewrite !app_nil_r in H. exact H.
    - rewrite LE in H at 2. rewrite !skipn_app, !Nat.sub_diag, !skipn_all in H. exact H. }
  assert (CI : forall p q, compress G p = compress G q -> p = q).
  { intros p q H. apply (f_equal (g_decompress G)) in H. rewrite !(gl_decompress G L) in H. injection H as ->. reflexivity. }
  apply AI in E; [|rewrite !compress_length; reflexivity]. destruct E as [EA E].
  apply AI in E; [|rewrite !compress_length; reflexivity]. destruct E as [EB E].
  apply AI in E; [|congruence]. destruct E as [-> ->]. apply CI in EA. apply CI in EB. auto.
Qed.

(* ---------------------------------------------------------------- C41 *)
(** A PAKE that can fail at its first call, and whose state is its password. *)
Definition flaky_pake : pake := {|
  PST := bytes; PERR := unit;
  pk_new := fun r ssid pw rl => Ret (pw, r);
  pk_run := fun s os m => if os 0%nat =? 1 then Ret (s, Err tt) else Ret (s, Ok (Some []));
  pk_done := fun _ => false;
  pk_fin := fun s => Ret s |}.
(** REFUTED: "the transcript in the PAKE input contains the message the shared points were
    computed from".  After a failed first call of the PAKE, a retry computes the points from
    the new message but puts the old one in the transcript. *)
Theorem chip_stale_transcript : forall P G, group_laws G ->
  forall r0 ssid other pf X R X' R' (r : rng), chip_hello G X R <> chip_hello G X' R' ->
  exists l s x, let m1 := chip_hello G (cp_X pf) (g_base G x) in
    hist (chip_machine P G flaky_pake) (fst (chip_new G flaky_pake r0 ssid pf Initiator other)) l s /\
    l = [([], Ok (Some m1)); (chip_hello G X R, Err tt); (chip_hello G X' R', Ok (Some []))] /\
    ch_pake s = Some (chip_input P G pf other x X' R' (m1 ++ chip_hello G X R)) /\
    chip_input P G pf other x X' R' (m1 ++ chip_hello G X R) <> chip_input P G pf other x X' R' (m1 ++ chip_hello G X' R').
Proof.
  intros P G L r0 ssid other pf X R X' R' r NE.
  set (x := fst (s_random G r)). set (m1 := chip_hello G (cp_X pf) (g_base G x)).
  set (M := chip_machine P G flaky_pake).
  set (s1 := Chip pf ssid other Initiator x None [m1] [] 2 : chip G flaky_pake).
  set (s2 := Chip pf ssid other Initiator x None [m1] [chip_hello G X R; chip_hello G X R] 2 : chip G flaky_pake).
  assert (E1 : m_run M (fst (chip_new G flaky_pake r0 ssid pf Initiator other)) (r, fun _ => 0) [] = Ret (s1, Ok (Some m1))).
  { cbn [m_run M chip_machine fst snd]. unfold chip_new. destruct (s_random G r0) as [z rz]. unfold chip_run. cbn [fst ch_step first_step].
    unfold chip_step_1, s1, m1, x. destruct (s_random G r) as [y ry]. reflexivity. }
  assert (E2 : m_run M s1 (r, fun _ => 1) (chip_hello G X R) = Ret (s2, Err tt)).
  { cbn [m_run M chip_machine fst snd]. unfold chip_run. cbn [ch_step s1]. rewrite chip_step_2_ok by exact L. reflexivity. }
  eexists _, _, x. cbv zeta. fold m1. split; [|split; [reflexivity|]].
  - eapply (hist_run M _ [_; _] s2 (r, fun _ => 0)); [eapply (hist_run M _ [_] s1); [eapply (hist_run M _ [] _); [constructor|exact E1]|exact E2]|].
    cbn [m_run M chip_machine fst snd]. unfold chip_run. cbn [ch_step s2]. rewrite chip_step_2_ok by exact L. reflexivity.
  - split.
    + unfold chip_next, chip_set, chip_push, s2. cbn [ch_pake ch_pwfile ch_ssid ch_other ch_role ch_r ch_sent ch_recv ch_step role_eqb app].
      unfold chip_zip. cbn [map2 List.concat]. rewrite ?app_nil_r. reflexivity.
    + intro E. apply chip_input_injective in E; [|exact L|apply chip_hello_length|apply chip_hello_length]. destruct E as [_ [E _]]. exact (NE E).
Qed.

(* ---------------------------------------------------------------- C42 *)
(** finalize, whatever the peer sent: it panics unless the PAKE was created (the second call
    succeeded), and then returns what the PAKE returns; with a PAKE whose finalize is guarded
    by completion (Cake, Cpace: C22) so is CHIP's. *)
Theorem chip_finalize_guarded : forall P G K, group_laws G -> fin_iff_done K ->
  forall r0 ssid other pf rl l s k,
  hist (chip_machine P G K) (fst (chip_new G K r0 ssid pf rl other)) l s -> chip_fin G K s = Ret k ->
  exists p, ch_pake s = Some p /\ pk_done K p = true /\ pk_fin K p = Ret k.
Proof.
  intros P G K L FD r0 ssid other pf rl l s k H F. unfold chip_fin in F.
  destruct (ch_pake s) as [p|] eqn:E; cbn [unwrap obind] in F; [|discriminate F].
  exists p. split; [reflexivity|]. split; [|exact F].
  destruct rl.
  - destruct (chip_initiator_input P G K L r0 ssid other pf l s p H E) as [a [x [errs [m2 [X [R [o [rest [r [p0 [r' [_ [_ [_ [N HP]]]]]]]]]]]]]]].
    destruct (pk_done K p) eqn:DN; [reflexivity|]. destruct (FD _ _ _ _ _ _ p N (hist_reach _ _ _ _ HP)) as [_ FP]. rewrite (FP DN) in F. discriminate F.
  - destruct (chip_responder_input P G K L r0 ssid other pf l s p H E) as [a [x [errs [m2 [X [R [o [rest [r [p0 [r' [_ [_ [_ [N HP]]]]]]]]]]]]]]].
    destruct (pk_done K p) eqn:DN; [reflexivity|]. destruct (FD _ _ _ _ _ _ p N (hist_reach _ _ _ _ HP)) as [_ FP]. rewrite (FP DN) in F. discriminate F.
Qed.
Theorem chip_finalize_before_pake_panics : forall P G K, group_laws G ->
  forall r0 ssid other pf rl c l s,
  hist (chip_machine P G K) (fst (chip_new G K r0 ssid pf rl other)) (c :: l) s -> Forall is_err l -> chip_fin G K s = Panic.
Proof.
  intros P G K L r0 ssid other pf rl c l s H FE. unfold chip_fin.
  destruct (ch_pake s) as [p|] eqn:E; [|reflexivity]. exfalso.
  assert (X : forall errs m (o : option bytes) rest, l = errs ++ (m, Ok o) :: rest -> False).
  { intros errs m o rest ->. apply Forall_app in FE. destruct FE as [_ FE]. inversion FE as [|? ? [e He] _]. discriminate He. }
  destruct rl.
  - destruct (chip_initiator_input P G K L r0 ssid other pf _ s p H E) as [a [x [errs [m2 [Q [R [o [rest [r [p0 [r' [EL _]]]]]]]]]]]].
    injection EL as _ EL. exact (X _ _ _ _ EL).
  - destruct (chip_responder_input P G K L r0 ssid other pf _ s p H E) as [a [x [errs [m2 [Q [R [o [rest [r [p0 [r' [EL _]]]]]]]]]]]].
    injection EL as _ EL. exact (X _ _ _ _ EL).
Qed.
(** The PAKE the repository pairs CHIP with: REFUTED. A responder hands out a key after two
    calls, before its peer has proved knowledge of anything. *)
Theorem chip_kc_spake2_finalize_refuted : forall P G S, group_laws G -> spake_correct S ->
  forall r0 ssid other pf (X R : point G),
  exists l s p key, let K := KcSpakePake P S in
    hist (chip_machine P G K) (fst (chip_new G K r0 ssid pf Responder other)) l s /\ List.length l = 2%nat /\
    (exists c, hd_error l = Some (chip_hello G X R, c)) /\
    ch_pake s = Some p /\ pk_done K p = false /\ chip_fin G K s = Ret key.
Proof.
  intros P G S L SC r0 ssid other pf X R. set (K := KcSpakePake P S).
  set (z := fun _ : nat => 0). set (x := fst (s_random G z)).
  set (m1 := chip_hello G X R). set (m2 := chip_hello G (cp_X pf) (g_base G x)).
  set (M := chip_machine P G K).
  set (s1 := Chip pf ssid other Responder x None [m2] [m1] 3 : chip G K).
  assert (E1 : m_run M (fst (chip_new G K r0 ssid pf Responder other)) (z, z) m1 = Ret (s1, Ok (Some m2))).
  { cbn [m_run M chip_machine fst snd]. unfold chip_new. destruct (s_random G r0) as [y ry]. unfold chip_run. cbn [fst ch_step first_step].
    unfold chip_step_1, s1, m2, x. destruct (s_random G z) as [y' ry']. reflexivity. }
  set (w := chip_input P G pf other x X R (m1 ++ m2)).
  destruct (pk_new K z ssid w Responder) as [[p0 r']|] eqn:N.
  2: { cbn [K KcSpakePake pk_new] in N. unfold kc_new in N. destruct (sp_start S w ssid z) as [[? ?] ?]. discriminate N. }
  destruct (kc_spake2_finalize_refuted P S SC z z ssid w p0 r' z N) as [p [m [key [_ [RN [D F]]]]]].
  fold K in RN, D, F.
  eexists [_; _], _, p, key. cbv zeta. fold K.
  split; [|split; [reflexivity|split; [eexists; reflexivity|split; [|split; [exact D|]]]]].
  - eapply (hist_run M _ [_] s1 (z, z)); [eapply (hist_run M _ [] _); [constructor|exact E1]|].
    cbn [m_run M chip_machine fst snd]. change (chip_run P G K s1 z z) with (fun m => let! (s2, w) := chip_step_2 P G K s1 m1 in chip_start G K s2 z z Responder w m). cbv beta.
    assert (S2 : chip_step_2 P G K s1 m1 = Ret (chip_push G K s1 m1, w)).
    { unfold m1. rewrite chip_step_2_ok by exact L. fold m1. unfold s1 at 2 3 4 5 6 7 8. cbn [ch_pwfile ch_ssid ch_other ch_role ch_r ch_pake ch_sent ch_recv ch_step role_eqb app].
      unfold chip_zip. cbn [map2 List.concat]. change (ch_sent s1) with [m2]. cbn [List.concat]. rewrite app_nil_r. reflexivity. }
    fold s1. rewrite S2. cbn [obind]. unfold chip_start. change (ch_ssid (chip_push G K s1 m1)) with ssid. rewrite N. cbn [obind].
    rewrite RN. reflexivity.
  - reflexivity.
  - exact F.
Qed.

(* ---------------------------------------------------------------- C37 *)
Theorem chip_steps : forall P G K r0 ssid pf rl other,
  disciplined (chip_machine P G K) ch_step rl (fst (chip_new G K r0 ssid pf rl other)).
Proof.
  intros P G K r0 ssid pf rl other.
  assert (X : forall s r os m s' o, chip_run P G K s r os m = Ret (s', o) ->
    ch_step s' = match o with Ok _ => (ch_step s + 2)%nat | Err _ => ch_step s end).
  { assert (S1 : forall s r s1 b r1, chip_step_1 G K s r = (s1, b, r1) -> ch_step s1 = ch_step s).
    { intros s r s1 b r1 E. unfold chip_step_1 in E. destruct (s_random G r) as [y ry]. injection E as <- _ _. reflexivity. }
    assert (S2 : forall s m s1 w, chip_step_2 P G K s m = Ret (s1, w) -> ch_step s1 = ch_step s).
    { intros s m s1 w E. unfold chip_step_2 in E. ob E. injection E as <- _. reflexivity. }
    intros s r os m s' o E. unfold chip_run in E. destruct (ch_step s) as [|[|[|[|n]]]] eqn:ES.
    - destruct (chip_step_1 G K s r) as [[s1 b] r1] eqn:E1. apply S1 in E1. injection E as <- <-. unfold chip_next. cbn [ch_step]. lia.
    - destruct (chip_step_1 G K (chip_push G K s m) r) as [[s1 b] r1] eqn:E1. apply S1 in E1. injection E as <- <-. unfold chip_next. cbn [ch_step]. cbn [chip_push ch_step] in E1. lia.
    - destruct (chip_step_2 P G K (chip_push G K s m) m) as [[s1 w]|] eqn:E2; cbn [obind] in E; [|discriminate E]. apply S2 in E2. cbn [chip_push ch_step] in E2.
      apply chip_start_inv in E. destruct E as [p0 [r' [p' [_ [_ ->]]]]]. destruct o; cbn; lia.
    - destruct (unwrap _) as [lst|]; cbn [obind] in E; [|discriminate E].
      destruct (chip_step_2 P G K s lst) as [[s1 w]|] eqn:E2; cbn [obind] in E; [|discriminate E]. apply S2 in E2.
      apply chip_start_inv in E. destruct E as [p0 [r' [p' [_ [_ ->]]]]]. destruct o; cbn; lia.
    - destruct (ch_pake s) as [p|]; cbn [unwrap obind] in E; [|discriminate E].
      destruct (pk_run K p os m) as [[p' [out|e]]|]; cbn [obind] in E; [| |discriminate E]; injection E as <- <-; cbn; lia. }
  apply (disciplined_by _ _ _ _ (fun _ => True)).
  - unfold chip_new. destruct (s_random G r0) as [y ry]. reflexivity.
  - exact Logic.I.
  - intros s rr m s' o _ E. split; [exact Logic.I|]. exact (X _ _ _ _ _ _ E).
  - intros s rr m s' e _ E. split; [exact Logic.I|]. exact (X _ _ _ _ _ _ E).
  - intros s rr m _ D. discriminate D.
Qed.
