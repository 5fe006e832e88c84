(** * PropsLatke: C32-C35 and C38, the composition, for every IBKE and every PAKE. *)
From Coq Require Import ZArith List Lia Bool String.
From Verif Require Import Base Crypto Symmetric Driver Pakes PropsPake Eue PropsEue Latke LatkeSim LatkeHist IbkeSpec PropsFg.
Import ListNotations.
Open Scope Z_scope.

(** ** Specifications *)
(** A PAKE is correct in n messages: sessions of opposite roles created with the same ssid and
    password exchange n messages, the next call returns nothing, both are done and have the
    same 32-byte key, for all randomness satisfying [ok]. *)
Definition pake_correct (K : pake) (n : nat) (ok : bytes -> bytes -> (nat -> rng) -> Prop) : Prop :=
  forall ssid pw rI rR tape, ok ssid pw (fun j => snd (tape j)) ->
  exists sI rI' sR rR' ms fI fR k,
    pk_new K rI ssid pw Initiator = Ret (sI, rI') /\ pk_new K rR ssid pw Responder = Ret (sR, rR') /\
    honest_run (pake_machine K) (n + 2) tape sI sR = Res Completed (map Some ms ++ [None]) fI fR /\
    List.length ms = n /\ pk_done K fI = true /\ pk_done K fR = true /\
    pk_fin K fI = Ret k /\ pk_fin K fR = Ret k /\ List.length k = 32%nat.
(** An IBKE is correct in m messages (IbkeSpec), the condition being on the operating system's
    randomness alone. *)
Definition ibke_correct (I : ibke) (m : nat) (ok : (nat -> rng) -> Prop) : Prop :=
  honest_agreement I m (fun tape => ok (fun j => snd (tape j))) /\
  forall rm mpk msk rm' id cert usk, gen_main I rm = (mpk, msk, rm') -> List.length id = 32%nat ->
    enrolled I msk id cert usk -> cert_id I cert = id.
(** The peer models of two sessions that want to talk to each other. *)
Definition peers_match (idI idR : bytes) (peerI peerR : peer_model) : Prop :=
  (peerI = PostSpecified /\ peerR = PostSpecified) \/ (peerI = PreSpecified idR /\ peerR = PreSpecified idI).
(** What both parties feed to the PAKE. *)
Definition shared_input (I : ibke) (mpk : MPK I) (idI idR : bytes) (peer : peer_model) : bytes :=
  match peer with PostSpecified => mpk_bytes I mpk | PreSpecified _ => mpk_bytes I mpk ++ idI ++ idR end.

(* ---------------------------------------------------------------- C33 *)
Theorem pwfile_main_key : forall P I pw r r' id id',
  pf_mpk (gen_pwfile P I r pw id) = pf_mpk (gen_pwfile P I r' pw id').
Proof.
  intros P I pw r r' id id'. unfold gen_pwfile.
  destruct (gen_main I (p_chacha12 P (hash256 P pw))) as [[mpk msk] rm].
  destruct (gen_user I r) as [[upk usk] r1]. destruct (ik_extract I r1 msk id upk) as [cert r2].
  destruct (gen_user I r') as [[upk' usk'] r1']. destruct (ik_extract I r1' msk id' upk') as [cert' r2'].
  reflexivity.
Qed.
(** Whoever owns a password file is enrolled under the key pair determined by the password. *)
Theorem pwfile_enrolled : forall P I pw, exists mpk msk rm',
  gen_main I (p_chacha12 P (hash256 P pw)) = (mpk, msk, rm') /\
  forall r id, pf_mpk (gen_pwfile P I r pw id) = mpk /\
    enrolled I msk id (pf_cert (gen_pwfile P I r pw id)) (pf_usk (gen_pwfile P I r pw id)).
Proof.
  intros P I pw. destruct (gen_main I (p_chacha12 P (hash256 P pw))) as [[mpk msk] rm] eqn:GM.
  exists mpk, msk, rm. split; [reflexivity|]. intros r id. unfold gen_pwfile. rewrite GM.
  destruct (gen_user I r) as [[upk usk] r1] eqn:GU. destruct (ik_extract I r1 msk id upk) as [cert r2] eqn:EX.
  split; [reflexivity|]. exists r, upk, r1, r1, r2. auto.
Qed.
Theorem pwfile_id : forall P I m ok r pw id, ibke_correct I m ok -> List.length id = 32%nat ->
  cert_id I (pf_cert (gen_pwfile P I r pw id)) = id.
Proof.
  intros P I m ok r pw id [_ C] L. destruct (pwfile_enrolled P I pw) as [mpk [msk [rm' [GM H]]]].
  destruct (H r id) as [_ E]. exact (C _ _ _ _ _ _ _ GM L E).
Qed.

(* ---------------------------------------------------------------- C34, honest *)
(** What travelled: the concatenation of everything that was sent. *)
Definition on_wire (outs : list (option bytes)) : bytes := List.concat (map opt_bytes outs).
Lemma latke_trans_run : forall P I K s r os m s' o, latke_run P I K s r os m = Ret (s', o) ->
  l_trans s' = l_trans s ++ m ++ opt_bytes o.
Proof.
  intros P I K s r os m s' o R.
  assert (X : l_trans s' = latke_absorb (l_trans s) m o).
  { unfold latke_run in R. destruct (latke_pake I K s os m) as [[[ps out] just]|]; cbn [obind] in R; [|discriminate R].
    destruct out as [a|]; [injection R as <- <-; reflexivity|].
    destruct (latke_eue P I K s ps r) as [[e r2]|]; cbn [obind] in R; [|discriminate R].
    match type of R with obind ?y _ = _ => destruct y as [[e' out]|]; cbn [obind] in R; [|discriminate R] end.
    injection R as <- <-. reflexivity. }
  rewrite X. unfold latke_absorb. destruct m as [|z m]; cbn [List.length Nat.ltb Nat.leb app]; [destruct o; reflexivity|].
  rewrite <- app_assoc. destruct o; reflexivity.
Qed.
Lemma last_default : forall {A} (a : A) l d d', last (a :: l) d = last (a :: l) d'.
Proof. intros A a l. revert a. induction l as [|b l IH]; intros a d d'; [reflexivity|]. exact (IH b d d'). Qed.
Lemma latke_drive_trans : forall P I K outs f t tape sI sR msg fI fR W,
  l_trans (sel t sI sR) ++ msg = W -> l_trans (sel t sR sI) = W ->
  drive (latke_machine P I K) f t tape sI sR msg = Res Completed outs fI fR ->
  last outs (Some msg) = None ->
  l_trans fI = W ++ on_wire outs /\ l_trans fR = W ++ on_wire outs.
Proof.
  intros P I K outs. induction outs as [|o outs IH]; intros f t tape sI sR msg fI fR W H1 H2 D L; [discriminate L|].
  apply drive_inv in D. destruct D as [f' [s' [-> [ND [R D]]]]]. apply latke_m_run in R. apply latke_trans_run in R.
  unfold on_wire. cbn [map List.concat]. fold (on_wire outs). rewrite !app_assoc.
  assert (T1 : l_trans (sel t sR sI) ++ opt_bytes o = W ++ opt_bytes o) by (rewrite H2; reflexivity).
  assert (T2 : l_trans s' = W ++ opt_bytes o) by (rewrite R, app_assoc, <- H1; reflexivity).
  destruct outs as [|o2 outs].
  - cbn [last] in L. subst o. apply drive_nil_inv in D. destruct D as [f2 [-> [_ [-> ->]]]].
    unfold on_wire. cbn [map List.concat opt_bytes]. cbn [opt_bytes] in T1, T2. rewrite !app_nil_r in *. destruct t; cbn [sel flip] in *; auto.
  - apply (IH f' (flip t) (shift tape) (sel t s' sI) (sel t sR s') (opt_bytes o)).
    + destruct t; exact T1.
    + destruct t; exact T2.
    + exact D.
    + rewrite (last_default o2 outs _ (Some msg)). exact L.
Qed.

(* ---------------------------------------------------------------- C32 *)
(** The inner IBKE sessions of a LATKE run whose PAKE takes n messages [ms] agree. *)
Definition inner_agrees (I : ibke) (m n : nat) (idI idR : bytes) (pfI pfR : pwfile I) (ssid : bytes) (ms : list bytes)
    (tape : nat -> rng * rng) : Prop :=
  agrees_at I m (pf_mpk pfI) idI idR (pf_cert pfI) (pf_cert pfR) (pf_usk pfI) (pf_usk pfR) ssid
    (fst (tape (ibke_start n))) (fst (tape (resp_start n))) (inner_tape I ssid pfI pfR ms tape).
Lemma ibke_correct_inner : forall P I m n ok pw idI idR rgI rgR ssid ms tape,
  ibke_correct I m ok -> List.length idI = 32%nat -> List.length idR = 32%nat -> List.length ms = n ->
  ok (fun j => os_ibke (snd (tape (ibke_start n + j)%nat))) ->
  inner_agrees I m n idI idR (gen_pwfile P I rgI pw idI) (gen_pwfile P I rgR pw idR) ssid ms tape.
Proof.
  intros P I m n ok pw idI idR rgI rgR ssid ms tape [CI _] LI LR LM OI.
  destruct (pwfile_enrolled P I pw) as [mpk [msk [rm' [GM EN]]]].
  destruct (EN rgI idI) as [EI1 EI2]. destruct (EN rgR idR) as [ER1 ER2]. unfold inner_agrees. rewrite EI1.
  refine (CI _ _ _ _ idI idR _ _ _ _ ssid _ _ _ GM LI LR EI2 ER2 _).
  unfold inner_tape. cbn [snd]. rewrite LM. exact OI.
Qed.
(** The core: whatever common password w was given to the PAKE, and whatever identities, when
    the two inner sessions of this run agree. *)
Lemma latke_core_at : forall P I K n m okK pw idI idR rgI rgR ssid w rI rR tape,
  pake_correct K n okK -> (1 <= m)%nat ->
  List.length idI = 32%nat -> List.length idR = 32%nat ->
  okK ssid w (fun j => os_pake (snd (tape j))) ->
  (forall ms, List.length ms = n -> inner_agrees I m n idI idR (gen_pwfile P I rgI pw idI) (gen_pwfile P I rgR pw idR) ssid ms tape) ->
  exists pI rI' pR rR' outs fI fR ik,
    pk_new K rI ssid w Initiator = Ret (pI, rI') /\ pk_new K rR ssid w Responder = Ret (pR, rR') /\
    honest_run (latke_machine P I K) (ibke_start n + (m + 2)) tape
      (Latke ssid (gen_pwfile P I rgI pw idI) Initiator pI None [])
      (Latke ssid (gen_pwfile P I rgR pw idR) Responder pR None []) = Res Completed outs fI fR /\
    List.length outs = (ibke_start n + (m + 1))%nat /\
    latke_done I K fI = true /\ latke_done I K fR = true /\
    let key := expand P (extract P (Some (str "latke-tr-hash")) (on_wire outs ++ ik)) (str "latke-final") 32 in
    latke_fin P I K fI = Ret (idR, key) /\ latke_fin P I K fR = Ret (idI, key) /\ List.length ik = 32%nat.
Proof.
  intros P I K n m okK pw idI idR rgI rgR ssid w rI rR tape CK M LI LR OK CI.
  assert (ER1 : pf_mpk (gen_pwfile P I rgR pw idR) = pf_mpk (gen_pwfile P I rgI pw idI)) by apply pwfile_main_key.
  set (pfI := gen_pwfile P I rgI pw idI) in *. set (pfR := gen_pwfile P I rgR pw idR) in *.
  destruct (CK ssid w rI rR (ptape tape) OK) as [pI [rI' [pR [rR' [ms [qI [qR [k [NI [NR [PK [LM [DI [DR [FI [FR LK]]]]]]]]]]]]]]]].
  exists pI, rI', pR, rR'.
  pose (it := inner_tape I ssid pfI pfR ms tape).
  destruct (CI ms LM) as [msgs [sI [sR [ik [IR [LMS [_ [D1 [D2 [F1 [F2 L2]]]]]]]]]]].
  fold it in IR.
  destruct (latke_sim P I K ssid pfI pfR ms tape k pI pR qI qR (n + 2) (map Some msgs ++ [None]) (m + 2) sI sR [] []) as
    [ws [eI [eR [trI [trR [R [E1 [E2 W]]]]]]]]; auto.
  { rewrite LM, ER1. exact IR. }
  { rewrite app_length, map_length, LMS. cbn. lia. }
  rewrite LM in R.
  set (outs := map Some ms ++ (if Nat.even n then [] else [None]) ++ ws) in *.
  assert (LW : List.length ws = (m + 1)%nat).
  { rewrite <- (wires_length _ _ _ _ _ _ W), app_length, map_length, LMS. reflexivity. }
  assert (LAST : last outs (Some []) = None).
  { assert (NW : nth_error ws m = Some None).
    { destruct (wires_nth _ _ _ _ _ _ m None W) as [b [B1 B2]].
      - rewrite nth_error_app2 by (rewrite map_length; lia). rewrite map_length, LMS, Nat.sub_diag. reflexivity.
      - cbn [wire] in B2. subst b. exact B1. }
    destruct (nth_error_split _ _ NW) as [l1 [l2 [EW L1]]].
    assert (l2 = []) as -> by (rewrite EW, app_length in LW; cbn in LW; destruct l2; [reflexivity|cbn in LW; lia]).
    unfold outs. rewrite EW, !app_assoc. apply last_last. }
  pose proof (fun W h1 h2 => latke_drive_trans P I K outs _ Initiator tape _ _ [] _ _ W h1 h2 R LAST) as TX.
  destruct (TX [] eq_refl eq_refl) as [TI TR].
  cbn [l_trans] in TI, TR. cbn [app] in TI, TR.
  eexists outs, _, _, ik. split; [exact NI|]. split; [exact NR|]. split; [exact R|].
  split.
  { unfold outs. rewrite !app_length, map_length, LM, LW. unfold ibke_start. destruct (Nat.even n); cbn [List.length]; lia. }
  unfold latke_done, latke_fin. cbn [l_ibke unwrap obind l_trans]. unfold eue_done, eue_fin. rewrite E1, E2, D1, D2, F1, F2, TI, TR.
  cbn [obind]. auto.
Qed.
Lemma latke_core : forall P I K n m okK okI pw idI idR rgI rgR ssid w rI rR tape,
  pake_correct K n okK -> ibke_correct I m okI -> (1 <= m)%nat ->
  List.length idI = 32%nat -> List.length idR = 32%nat ->
  okK ssid w (fun j => os_pake (snd (tape j))) ->
  okI (fun j => os_ibke (snd (tape (ibke_start n + j)%nat))) ->
  exists pI rI' pR rR' outs fI fR ik,
    pk_new K rI ssid w Initiator = Ret (pI, rI') /\ pk_new K rR ssid w Responder = Ret (pR, rR') /\
    honest_run (latke_machine P I K) (ibke_start n + (m + 2)) tape
      (Latke ssid (gen_pwfile P I rgI pw idI) Initiator pI None [])
      (Latke ssid (gen_pwfile P I rgR pw idR) Responder pR None []) = Res Completed outs fI fR /\
    List.length outs = (ibke_start n + (m + 1))%nat /\
    latke_done I K fI = true /\ latke_done I K fR = true /\
    let key := expand P (extract P (Some (str "latke-tr-hash")) (on_wire outs ++ ik)) (str "latke-final") 32 in
    latke_fin P I K fI = Ret (idR, key) /\ latke_fin P I K fR = Ret (idI, key) /\ List.length ik = 32%nat.
Proof.
  intros P I K n m okK okI pw idI idR rgI rgR ssid w rI rR tape CK CI M LI LR OK OI.
  apply (latke_core_at P I K n m okK pw idI idR rgI rgR ssid w rI rR tape CK M LI LR OK).
  intros ms LM. apply (ibke_correct_inner P I m n okI); assumption.
Qed.
Lemma latke_agreement_at : forall P I K n m okK pw idI idR rgI rgR ssid peerI peerR rI rR tape,
  pake_correct K n okK -> (1 <= m)%nat ->
  List.length idI = 32%nat -> List.length idR = 32%nat -> peers_match idI idR peerI peerR ->
  let pfI := gen_pwfile P I rgI pw idI in
  let pfR := gen_pwfile P I rgR pw idR in
  okK ssid (shared_input I (pf_mpk pfI) idI idR peerI) (fun j => os_pake (snd (tape j))) ->
  cert_id I (pf_cert pfI) = idI -> cert_id I (pf_cert pfR) = idR ->
  (forall ms, List.length ms = n -> inner_agrees I m n idI idR pfI pfR ssid ms tape) ->
  exists sI rI' sR rR' outs fI fR key,
    latke_new I K rI ssid pfI Initiator peerI = Ret (sI, rI') /\
    latke_new I K rR ssid pfR Responder peerR = Ret (sR, rR') /\
    honest_run (latke_machine P I K) (ibke_start n + (m + 2)) tape sI sR = Res Completed outs fI fR /\
    latke_done I K fI = true /\ latke_done I K fR = true /\
    latke_fin P I K fI = Ret (idR, key) /\ latke_fin P I K fR = Ret (idI, key) /\ List.length key = 32%nat.
Proof.
  intros P I K n m okK pw idI idR rgI rgR ssid peerI peerR rI rR tape CK M LI LR PM pfI pfR OK CII CIR CI.
  destruct (latke_core_at P I K n m okK pw idI idR rgI rgR ssid _ rI rR tape CK M LI LR OK CI) as
    [pI [rI' [pR [rR' [outs [fI [fR [ik [NI [NR [R [_ [D1 [D2 [F1 [F2 _]]]]]]]]]]]]]]]].
  assert (WI : pake_input I pfI Initiator peerI = shared_input I (pf_mpk pfI) idI idR peerI).
  { unfold pake_input, shared_input. destruct PM as [[-> ->]|[-> ->]]; [reflexivity|]. cbn [role_eqb fst snd].
    rewrite CII. reflexivity. }
  assert (WR : pake_input I pfR Responder peerR = shared_input I (pf_mpk pfI) idI idR peerI).
  { unfold pake_input, shared_input. replace (pf_mpk pfR) with (pf_mpk pfI) by apply pwfile_main_key.
    destruct PM as [[-> ->]|[-> ->]]; [reflexivity|]. cbn [role_eqb fst snd].
    rewrite CIR. reflexivity. }
  fold pfI pfR in R.
  eexists (Latke ssid pfI Initiator pI None []), rI', (Latke ssid pfR Responder pR None []), rR', outs, fI, fR, _.
  unfold latke_new. rewrite WI, WR, NI, NR. cbn [obind].
  split; [reflexivity|]. split; [reflexivity|]. split; [exact R|]. split; [exact D1|]. split; [exact D2|].
  split; [exact F1|]. split; [exact F2|]. apply expand_length.
Qed.

Theorem latke_agreement : forall P I K n m okK okI pw idI idR rgI rgR ssid peerI peerR rI rR tape,
  pake_correct K n okK -> ibke_correct I m okI -> (1 <= m)%nat ->
  List.length idI = 32%nat -> List.length idR = 32%nat -> peers_match idI idR peerI peerR ->
  let pfI := gen_pwfile P I rgI pw idI in
  let pfR := gen_pwfile P I rgR pw idR in
  okK ssid (shared_input I (pf_mpk pfI) idI idR peerI) (fun j => os_pake (snd (tape j))) ->
  okI (fun j => os_ibke (snd (tape (ibke_start n + j)%nat))) ->
  exists sI rI' sR rR' outs fI fR key,
    latke_new I K rI ssid pfI Initiator peerI = Ret (sI, rI') /\
    latke_new I K rR ssid pfR Responder peerR = Ret (sR, rR') /\
    honest_run (latke_machine P I K) (ibke_start n + (m + 2)) tape sI sR = Res Completed outs fI fR /\
    latke_done I K fI = true /\ latke_done I K fR = true /\
    latke_fin P I K fI = Ret (idR, key) /\ latke_fin P I K fR = Ret (idI, key) /\ List.length key = 32%nat.
Proof.
  intros P I K n m okK okI pw idI idR rgI rgR ssid peerI peerR rI rR tape CK CI M LI LR PM pfI pfR OK OI.
  apply (latke_agreement_at P I K n m okK pw idI idR rgI rgR ssid peerI peerR rI rR tape CK M LI LR PM OK).
  - apply (pwfile_id P I m okI); assumption.
  - apply (pwfile_id P I m okI); assumption.
  - intros ms LM. apply (ibke_correct_inner P I m n okI); assumption.
Qed.

(* ---------------------------------------------------------------- C34 *)
(** Any run, honest delivery: when it has ended with a call that sent nothing, each party's
    key is the KDF of what travelled followed by its inner key. *)
Theorem latke_wire_transcript : forall P I K rI rR ssidI ssidR pfI pfR peerI peerR sI rI' sR rR' f tape outs fI fR,
  latke_new I K rI ssidI pfI Initiator peerI = Ret (sI, rI') ->
  latke_new I K rR ssidR pfR Responder peerR = Ret (sR, rR') ->
  honest_run (latke_machine P I K) f tape sI sR = Res Completed (outs ++ [None]) fI fR ->
  forall s, s = fI \/ s = fR -> forall id key, latke_fin P I K s = Ret (id, key) ->
  exists e ik, l_ibke s = Some e /\ ik_fin I (e_sess e) = Ret (id, ik) /\
    key = expand P (extract P (Some (str "latke-tr-hash")) (on_wire outs ++ ik)) (str "latke-final") 32.
Proof.
  intros P I K rI rR ssidI ssidR pfI pfR peerI peerR sI rI' sR rR' f tape outs fI fR NI NR H s S id key F.
  assert (TI : l_trans sI = []).
  { unfold latke_new in NI. destruct (pk_new K rI ssidI _ Initiator) as [[p q]|]; cbn [obind] in NI; [|discriminate NI]. injection NI as <- _. reflexivity. }
  assert (TR : l_trans sR = []).
  { unfold latke_new in NR. destruct (pk_new K rR ssidR _ Responder) as [[p q]|]; cbn [obind] in NR; [|discriminate NR]. injection NR as <- _. reflexivity. }
  unfold honest_run in H.
  pose proof (fun W h1 h2 => latke_drive_trans P I K _ _ _ _ _ _ _ _ _ W h1 h2 H (last_last _ _ _)) as TX.
  destruct (TX [] ltac:(cbn [sel]; rewrite TI; reflexivity) TR) as [A B].
  assert (T : l_trans s = on_wire outs).
  { assert (X : on_wire (outs ++ [None]) = on_wire outs) by (unfold on_wire; rewrite map_app, List.concat_app; cbn; apply app_nil_r).
    rewrite X in A, B. destruct S as [-> | ->]; assumption. }
  unfold latke_fin in F. destruct (l_ibke s) as [e|] eqn:E; cbn [unwrap obind] in F; [|discriminate F].
  unfold eue_fin in F. destruct (ik_fin I (e_sess e)) as [[id' ik]|] eqn:IFN; cbn [obind] in F; [|discriminate F].
  injection F as <- <-. exists e, ik. rewrite T. auto.
Qed.
(** One session against an arbitrary peer: the key is the KDF of exactly the messages it
    received and sent, in order, followed by the inner key. *)
Theorem latke_key_binds_transcript : forall P I K r ssid pf rl peer s0 r' l s id key,
  silent_when_done K ->
  latke_new I K r ssid pf rl peer = Ret (s0, r') ->
  hist (latke_machine P I K) s0 l s ->
  latke_fin P I K s = Ret (id, key) ->
  exists e ik, l_ibke s = Some e /\ ik_fin I (e_sess e) = Ret (id, ik) /\
    key = expand P (extract P (Some (str "latke-tr-hash")) (log_transcript l ++ ik)) (str "latke-final") 32.
Proof.
  intros P I K r ssid pf rl peer s0 r' l s id key SD N H F.
  destruct (latke_log_oks P I K l) as [x ->].
  destruct (latke_parts_hist P I K r ssid pf rl peer SD s0 r' x s N H) as [p0 [_ [_ T]]].
  unfold latke_fin in F. destruct (l_ibke s) as [e|] eqn:E; cbn [unwrap obind] in F; [|discriminate F].
  unfold eue_fin in F. destruct (ik_fin I (e_sess e)) as [[id' ik]|] eqn:IFN; cbn [obind] in F; [|discriminate F].
  injection F as <- <-. exists e, ik. rewrite T. auto.
Qed.
(** Hence two sessions, of any two histories, feed the KDF the same input only if they saw the
    same concatenation and hold the same inner key. *)
Theorem latke_kdf_input_injective : forall (t t' ik ik' : bytes), List.length ik = List.length ik' ->
  t ++ ik = t' ++ ik' -> t = t' /\ ik = ik'.
Proof.
  intros t t' ik ik' L E.
  assert (LT : List.length t = List.length t') by (apply (f_equal (@List.length Z)) in E; rewrite !app_length in E; lia).
  clear L. revert t' LT E. induction t as [|a t IH]; intros [|b t'] LT E; cbn in LT; try lia; [auto|].
  cbn in E. injection E as -> E. destruct (IH t' ltac:(lia) E) as [-> ->]. auto.
Qed.

(* ---------------------------------------------------------------- C35 *)
(** What a completed session means, whatever the peer sent: its PAKE ran without error to
    completion with a key k, its IBKE session ran without error to completion, on the messages
    that the ciphertexts opened to under the keys derived from k, and every IBKE message it
    sent went out sealed; nothing else happened. *)
Theorem latke_done_means : forall P I K r ssid pf rl peer s0 r' l s,
  silent_when_done K ->
  latke_new I K r ssid pf rl peer = Ret (s0, r') ->
  hist (latke_machine P I K) s0 l s ->
  latke_done I K s = true ->
  exists p0 x xp pd k ri xe xi si,
    pk_new K r ssid (pake_input I pf rl peer) rl = Ret (p0, r') /\
    l = oks x /\ merges rl x xp xe /\
    hist (pake_machine K) p0 (oks xp) pd /\ pk_done K pd = true /\ pk_fin K pd = Ret k /\
    hist (ibke_machine I) (fst (ik_new I ri ssid (pf_mpk pf) (pf_cert pf) (pf_usk pf) rl)) (oks xi) si /\
    opens P k ssid rl xe xi /\ ik_done I si = true /\
    latke_fin P I K s = (let! (id, ik) := ik_fin I si in
      Ret (id, expand P (extract P (Some (str "latke-tr-hash")) (log_transcript l ++ ik)) (str "latke-final") 32)).
Proof.
  intros P I K r ssid pf rl peer s0 r' l s SD N H D.
  destruct (latke_log_oks P I K l) as [x ->].
  destruct (latke_parts_hist P I K r ssid pf rl peer SD s0 r' x s N H) as [p0 [PN [[_ [_ [_ [xp [HP C]]]]] T]]].
  unfold latke_done in D. destruct C as [[LN _]|[k [ri [e0 [r2 [e [xe [PD [FK [LN [MG [EN HE]]]]]]]]]]]].
  { rewrite LN in D. discriminate D. }
  rewrite LN in D. unfold eue_done in D.
  destruct (eue_hist_at _ _ _ _ _ _ _ _ _ _ _ _ _ EN HE) as [xi [HI [OP _]]].
  exists p0, x, xp, (l_pake s), k, ri, xe, xi, (e_sess e).
  split; [exact PN|]. split; [reflexivity|]. split; [exact MG|]. split; [exact HP|]. split; [exact PD|]. split; [exact FK|].
  split; [exact HI|]. split; [exact OP|]. split; [exact D|].
  unfold latke_fin. rewrite LN. cbn [unwrap obind]. unfold eue_fin. rewrite T. reflexivity.
Qed.
(** A session that has its encrypted IBKE panics on every non-empty message that does not
    authenticate under its current key, in every reachable state. *)
Theorem latke_bad_ciphertext_panics : forall P I K r ssid pf rl peer s0 r' l s e r1 os c,
  silent_when_done K ->
  latke_new I K r ssid pf rl peer = Ret (s0, r') ->
  hist (latke_machine P I K) s0 l s -> l_ibke s = Some e ->
  c <> [] -> (forall m, auth_decrypt P (e_msg_key e) c <> Ret (Ok m)) ->
  latke_run P I K s r1 os c = Panic.
Proof.
  intros P I K r ssid pf rl peer s0 r' l s e r1 os c SD N H LN NE B.
  destruct (latke_log_oks P I K l) as [x ->].
  destruct (latke_parts_hist P I K r ssid pf rl peer SD s0 r' x s N H) as [p0 [PN [[_ [_ [_ [xp [HP C]]]]] T]]].
  destruct C as [[LN' _]|[k [ri [e0 [r2 [e' [xe [PD [FK [LN' [MG [EN HE]]]]]]]]]]]]; rewrite LN in LN'; [discriminate LN'|].
  injection LN' as <-.
  assert (X : eue_run P I e r1 (os_ibke os) c = Panic).
  { eapply eue_bad_ciphertext_panics; [exact EN|eapply hist_reach; exact HE|exact NE|exact B]. }
  unfold latke_run, latke_pake. rewrite PD. cbn [negb obind]. unfold latke_eue. rewrite LN. cbn [obind].
  unfold latke_eue_run. rewrite X. reflexivity.
Qed.
(** The key it decrypts with: position recv_pos of the schedule started by the PAKE's key. *)
Theorem latke_current_key : forall P I K r ssid pf rl peer s0 r' l s e,
  silent_when_done K ->
  latke_new I K r ssid pf rl peer = Ret (s0, r') ->
  hist (latke_machine P I K) s0 l s -> l_ibke s = Some e ->
  exists k x xp xe, pk_fin K (l_pake s) = Ret k /\ l = oks x /\ merges rl x xp xe /\
    e_msg_key e = key_at P k ssid (recv_pos rl (List.length xe)).
Proof.
  intros P I K r ssid pf rl peer s0 r' l s e SD N H LN.
  destruct (latke_log_oks P I K l) as [x ->].
  destruct (latke_parts_hist P I K r ssid pf rl peer SD s0 r' x s N H) as [p0 [PN [[_ [_ [_ [xp [HP C]]]]] T]]].
  destruct C as [[LN' _]|[k [ri [e0 [r2 [e' [xe [PD [FK [LN' [MG [EN HE]]]]]]]]]]]]; rewrite LN in LN'; [discriminate LN'|].
  injection LN' as <-. destruct (eue_hist_at _ _ _ _ _ _ _ _ _ _ _ _ _ EN HE) as [xi [_ [_ A]]].
  exists k, x, xp, xe. split; [exact FK|]. split; [reflexivity|]. split; [exact MG|].
  unfold eue_at, at_pos in A. rewrite A. reflexivity.
Qed.
(** The same before the encrypted IBKE exists: the first message after the PAKE must
    authenticate under the first key. *)
Theorem latke_first_bad_ciphertext_panics : forall P I K s k r1 os c,
  pk_done K (l_pake s) = true -> l_ibke s = None -> pk_fin K (l_pake s) = Ret k ->
  c <> [] -> (forall m, auth_decrypt P (key_at P k (l_ssid s) 0) c <> Ret (Ok m)) ->
  latke_run P I K s r1 os c = Panic.
Proof.
  intros P I K s k r1 os c PD LN FK NE B. unfold latke_run, latke_pake. rewrite PD. cbn [negb obind]. unfold latke_eue. rewrite LN, FK. cbn [obind].
  destruct (eue_new P I r1 (l_ssid s) _ _ _ (l_role s) k) as [[e0 r2]|] eqn:EN; cbn [obind]; [|reflexivity].
  unfold latke_eue_run. rewrite (eue_bad_ciphertext_panics _ _ _ _ _ _ _ _ _ _ _ e0 r2 (os_ibke os) c EN); [reflexivity|constructor|exact NE|].
  pose proof (eue_new_inv _ _ _ _ _ _ _ _ _ _ _ EN) as A. unfold eue_at, at_pos in A. rewrite A. cbn [e_msg_key].
  replace (recv_pos (l_role s) 0) with O by (destruct (l_role s); reflexivity). exact B.
Qed.
(** Errors and panics of the PAKE or of the IBKE panic. *)
Theorem latke_pake_failure_panics : forall P I K s r os m,
  pk_done K (l_pake s) = false ->
  (pk_run K (l_pake s) (os_pake os) m = Panic \/ exists s' e, pk_run K (l_pake s) (os_pake os) m = Ret (s', Err e)) ->
  latke_run P I K s r os m = Panic.
Proof.
  intros P I K s r os m D H. unfold latke_run, latke_pake. rewrite D. cbn [negb].
  destruct H as [->|[s' [e ->]]]; reflexivity.
Qed.
Theorem latke_ibke_failure_panics : forall P I K r ssid pf rl peer s0 r' l s e r1 os c m,
  silent_when_done K ->
  latke_new I K r ssid pf rl peer = Ret (s0, r') ->
  hist (latke_machine P I K) s0 l s -> l_ibke s = Some e ->
  auth_decrypt P (e_msg_key e) c = Ret (Ok m) -> c <> [] ->
  (ik_run I (e_sess e) r1 (os_ibke os) m = Panic \/ exists s' er r2, ik_run I (e_sess e) r1 (os_ibke os) m = Ret (s', Err er, r2)) ->
  latke_run P I K s r1 os c = Panic.
Proof.
  intros P I K r ssid pf rl peer s0 r' l s e r1 os c m SD N H LN AD NE HF.
  destruct (latke_log_oks P I K l) as [x ->].
  destruct (latke_parts_hist P I K r ssid pf rl peer SD s0 r' x s N H) as [p0 [PN [[_ [_ [_ [xp [HP C]]]]] T]]].
  destruct C as [[LN' _]|[k [ri [e0 [r2 [e' [xe [PD [FK [LN' [MG [EN HE]]]]]]]]]]]]; rewrite LN in LN'; [discriminate LN'|].
  injection LN' as <-. destruct (eue_hist_at _ _ _ _ _ _ _ _ _ _ _ _ _ EN HE) as [xi [_ [_ A]]].
  unfold latke_run, latke_pake. rewrite PD. cbn [negb obind]. unfold latke_eue. rewrite LN. cbn [obind]. unfold latke_eue_run.
  destruct (eue_run P I e r1 (os_ibke os) c) as [[[e2 [o|er]] r3]|] eqn:RE; [|reflexivity|reflexivity].
  destruct (eue_run_inv _ _ _ _ _ _ _ _ _ _ _ _ _ _ A RE) as [m' [a [s' [r4 [RI [F _]]]]]].
  assert (m' = m) as ->.
  { destruct F as [[_ E]|[_ F]]; [congruence|].
    assert (X : e_msg_key e = key_at P k ssid (recv_pos rl (List.length xe))) by (unfold eue_at, at_pos in A; rewrite A; reflexivity).
    rewrite X in AD. rewrite AD in F. congruence. }
  destruct HF as [HF|[q [er [r5 HF]]]]; rewrite HF in RI; discriminate RI.
Qed.

(* ---------------------------------------------------------------- C38 *)
(** "A session with PreSpecified(id) that completes outputs that id": refuted, for every correct
    IBKE and PAKE.  The pre-specified id only enters the PAKE's password, which is computed by
    the peer from public data; the id that finalize returns is whatever certificate the peer
    used, and run never compares the two.  Here the initiator wants idX, and the peer, who owns a
    password file for idY, takes part in the PAKE with the input of idX. *)
Definition prespecified_id_enforced (P : prims) (I : ibke) (K : pake) : Prop :=
  forall rg pw id r ssid want s0 r' l s got key,
    List.length id = 32%nat ->
    latke_new I K r ssid (gen_pwfile P I rg pw id) Initiator (PreSpecified want) = Ret (s0, r') ->
    hist (latke_machine P I K) s0 l s -> latke_done I K s = true ->
    latke_fin P I K s = Ret (got, key) -> got = want.
Lemma drive_hist : forall M f t tape sI sR msg,
  exists lI, (r_status (drive M f t tape sI sR msg) = Completed ->
  hist M sI lI (r_init (drive M f t tape sI sR msg))).
Proof.
  intros M f t tape sI sR msg. destruct (drive_reach M f t tape sI sR msg) as [A _].
  destruct (reach_hist _ _ _ A) as [l H]. exists l. auto.
Qed.
Theorem prespecified_id_refuted : forall P I K n m okK okI pw idI idX idY rgI ssid (rI : rng) (tape : nat -> rng * rng),
  pake_correct K n okK -> ibke_correct I m okI -> (1 <= m)%nat ->
  List.length idI = 32%nat -> List.length idY = 32%nat -> idX <> idY ->
  okK ssid (mpk_bytes I (pf_mpk (gen_pwfile P I rgI pw idI)) ++ idI ++ idX) (fun j => os_pake (snd (tape j))) ->
  okI (fun j => os_ibke (snd (tape (ibke_start n + j)%nat))) ->
  ~ prespecified_id_enforced P I K.
Proof.
  intros P I K n m okK okI pw idI idX idY rgI ssid rI tape CK CI M LI LY NE OK OI H.
  destruct (latke_core P I K n m okK okI pw idI idY rgI rI ssid _ rI rI tape CK CI M LI LY OK OI) as
    [pI [rI' [pR [rR' [outs [fI [fR [ik [NI [NR [R [_ [D1 [_ [F1 _]]]]]]]]]]]]]]].
  unfold honest_run in R.
  destruct (drive_hist (latke_machine P I K) (ibke_start n + (m + 2)) Initiator tape
    (Latke ssid (gen_pwfile P I rgI pw idI) Initiator pI None []) (Latke ssid (gen_pwfile P I rI pw idY) Responder pR None []) []) as [l HL].
  rewrite R in HL. cbn [r_status r_init] in HL. specialize (HL eq_refl).
  apply NE. symmetry.
  refine (H rgI pw idI rI ssid idX (Latke ssid (gen_pwfile P I rgI pw idI) Initiator pI None []) rI' l fI idY _ LI _ HL D1 F1).
  unfold latke_new, pake_input. cbn [role_eqb fst snd]. rewrite (pwfile_id P I m okI) by assumption. rewrite NI. reflexivity.
Qed.
