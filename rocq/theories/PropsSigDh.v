(** * PropsSigDh: ID-SIG-DH (C23, and its parts of C27-C31 and C37). *)
From Coq Require Import ZArith List Lia Bool String.
From Verif Require Import Base Crypto Symmetric PropsSym Driver Pakes Ibkes IbkeSpec.
Import ListNotations.
Open Scope Z_scope.

(* ---------------------------------------------------------------- C27 *)
(** A certificate the types of the Rust code allow: 32-byte id and keys, 64-byte signature, a
    valid Ed25519 key. *)
Definition sd_cert_wf (P : prims) (c : sd_cert) : Prop :=
  List.length (sdc_id c) = 32%nat /\ List.length (fst (sdc_upk c)) = 32%nat /\
  List.length (snd (sdc_upk c)) = 32%nat /\ List.length (sdc_sig c) = 64%nat /\
  p_pk_valid P Ed25519 (fst (sdc_upk c)) = true.
Lemma copy_exact_ok : forall n b, List.length b = n -> copy_exact n b = Ret b.
Proof. intros n b H. unfold copy_exact. rewrite H, Nat.eqb_refl. reflexivity. Qed.
Lemma copy_exact_inv : forall n b c, copy_exact n b = Ret c -> c = b /\ List.length b = n.
Proof.
  intros n b c H. unfold copy_exact, assert_ in H. destruct (List.length b =? n)%nat eqn:E; [|discriminate].
  apply Nat.eqb_eq in E. injection H as <-. auto.
Qed.
Lemma ed_pk_ok : forall P b, List.length b = 32%nat -> p_pk_valid P Ed25519 b = true -> ed_pk_from_bytes P b = Ret b.
Proof. intros P b L V. unfold ed_pk_from_bytes. rewrite copy_exact_ok by exact L. cbn [obind]. rewrite V. reflexivity. Qed.
Lemma ed_pk_inv : forall P b c, ed_pk_from_bytes P b = Ret c -> c = b /\ List.length b = 32%nat /\ p_pk_valid P Ed25519 b = true.
Proof.
  intros P b c H. unfold ed_pk_from_bytes in H. obi H.
  apply copy_exact_inv in E. destruct E as [-> L]. injection H as <-. auto.
Qed.
(** Decoding an encoded certificate gives it back, in 160 bytes. *)
Theorem sd_cert_roundtrip : forall P c, sd_cert_wf P c ->
  sd_cert_from_bytes P (sd_cert_to_bytes c) = Ret c /\ List.length (sd_cert_to_bytes c) = 160%nat.
Proof.
  intros P [id [pk dh] sg] [L1 [L2 [L3 [L4 V]]]]. cbn [sdc_id sdc_upk sdc_sig fst snd] in *.
  unfold sd_cert_from_bytes, sd_cert_to_bytes. cbn [sdc_id sdc_upk sdc_sig fst snd]. split.
  - rewrite split_at_app by exact L1. cbn [obind]. rewrite split_at_app by exact L2. cbn [obind].
    rewrite split_at_app by exact L3. cbn [obind]. rewrite ed_pk_ok by assumption. cbn [obind].
    unfold ed_sig_from_bytes. rewrite copy_exact_ok by exact L4. reflexivity.
  - rewrite !app_length. lia.
Qed.
(** Whatever decodes is the encoding of a well-formed certificate: in particular it has 160
    bytes and no two byte strings decode to one certificate. *)
Theorem sd_cert_decode_exact : forall P b c, sd_cert_from_bytes P b = Ret c ->
  b = sd_cert_to_bytes c /\ sd_cert_wf P c /\ List.length b = 160%nat.
Proof.
  intros P b c H. unfold sd_cert_from_bytes in H. obi H.
  repeat match goal with X : split_at _ _ = Ret _ |- _ => apply split_at_inv in X; destruct X as [-> ?] end.
  match goal with X : ed_pk_from_bytes _ _ = Ret _ |- _ => apply ed_pk_inv in X; destruct X as [-> [? ?]] end.
  match goal with X : ed_sig_from_bytes _ = Ret _ |- _ => apply copy_exact_inv in X; destruct X as [-> ?] end.
  injection H as <-. unfold sd_cert_to_bytes, sd_cert_wf, ID_LEN in *. cbn [sdc_id sdc_upk sdc_sig fst snd].
  split; [reflexivity|]. split; [auto|]. rewrite !app_length. lia.
Qed.
Corollary sd_cert_wrong_length_panics : forall P b, List.length b <> 160%nat -> sd_cert_from_bytes P b = Panic.
Proof.
  intros P b H. destruct (sd_cert_from_bytes P b) as [c|] eqn:E; [|reflexivity].
  apply sd_cert_decode_exact in E. tauto.
Qed.

(** Enrolment gives well-formed certificates that verify under the main key. *)
Lemma sd_enrolled : forall P rm mpk msk rm' id cert usk,
  sig_correct P Ed25519 -> gen_main (IdSigDh P) rm = (mpk, msk, rm') ->
  List.length id = 32%nat -> enrolled (IdSigDh P) msk id cert usk ->
  sd_cert_wf P cert /\ sdc_id cert = id /\ sd_cert_valid P mpk cert = true /\
  (forall m, verify P Ed25519 (fst (sdc_upk cert)) m (sign P Ed25519 (fst usk) m) = true) /\
  snd (sdc_upk cert) = x_pub P (snd usk).
Proof.
  intros P rm mpk msk rm' id cert usk C GM L [ru [upk [ru' [re [re' [GU EX]]]]]].
  cbn [IdSigDh gen_main gen_user ik_extract] in *. unfold sd_gen_main in GM. unfold sd_gen_user in GU. unfold sd_extract in EX.
  destruct (keygen_ok _ _ _ _ _ _ C GM) as [VM _].
  destruct (sig_keygen P Ed25519 ru) as [[spk ssk] r1] eqn:KG. destruct (draw 32 r1) as [dsk r2].
  destruct (keygen_ok _ _ _ _ _ _ C KG) as [VU [PV [PL _]]].
  injection GU as <- <- _. injection EX as <- _. unfold sd_cert_wf, sd_cert_valid. cbn [sdc_id sdc_upk sdc_sig fst snd].
  repeat split; auto; first [apply x_pub_length|apply sign_length].
Qed.
Lemma sd_parse_ok : forall P eph sg c, List.length eph = 32%nat -> List.length sg = 64%nat -> sd_cert_wf P c ->
  sd_parse P (eph ++ sg ++ sd_cert_to_bytes c) = Ret (eph, sg, c).
Proof.
  intros P eph sg c L1 L2 W. unfold sd_parse. rewrite split_at_app by exact L1. cbn [obind].
  rewrite split_at_app by exact L2. cbn [obind]. unfold ed_sig_from_bytes. rewrite copy_exact_ok by exact L2. cbn [obind].
  rewrite (proj1 (sd_cert_roundtrip P c W)). reflexivity.
Qed.
Lemma sd_parse_inv : forall P m eph sg c, sd_parse P m = Ret (eph, sg, c) ->
  m = eph ++ sg ++ sd_cert_to_bytes c /\ List.length eph = 32%nat /\ List.length sg = 64%nat /\ sd_cert_wf P c.
Proof.
  intros P m eph sg c H. unfold sd_parse in H. obi H. injection H as <- <- <-.
  repeat match goal with X : split_at _ _ = Ret _ |- _ => apply split_at_inv in X; destruct X as [-> ?] end.
  match goal with X : ed_sig_from_bytes _ = Ret _ |- _ => apply copy_exact_inv in X; destruct X as [-> ?] end.
  match goal with X : sd_cert_from_bytes _ _ = Ret _ |- _ => apply sd_cert_decode_exact in X; destruct X as [-> [? ?]] end.
  auto.
Qed.

(* ---------------------------------------------------------------- C23 *)
Theorem sig_dh_agreement : forall P, sig_correct P Ed25519 -> dh_commutes P ->
  honest_agreement (IdSigDh P) 2 (fun _ => True).
Proof.
  intros P C DH rm mpk msk rm' idI idR certI certR uskI uskR ssid rI rR tape GM LI LR EI ER _.
  destruct (sd_enrolled P rm mpk msk rm' idI certI uskI C GM LI EI) as [WI [II [VI [SI XI]]]].
  destruct (sd_enrolled P rm mpk msk rm' idR certR uskR C GM LR ER) as [WR [IR [VR [SR XR]]]].
  set (e0 := fst (draw 32 (snd (tape 0%nat)))). set (e1 := fst (draw 32 (snd (tape 1%nat)))).
  set (p0 := x_pub P e0). set (p1 := x_pub P e1).
  set (m0 := p0 ++ sign P Ed25519 (fst uskI) ([0] ++ ssid ++ p0) ++ sd_cert_to_bytes certI).
  set (m1 := p1 ++ sign P Ed25519 (fst uskR) ([1] ++ ssid ++ p1) ++ sd_cert_to_bytes certR).
  set (zR := x_dh P (snd uskR) (snd (sdc_upk certI)) ++ x_dh P (snd uskR) p0 ++ x_dh P e1 (snd (sdc_upk certI)) ++ x_dh P e1 p0).
  set (k := expand P (extract P None zR) (ssid ++ p0 ++ p1) 32).
  assert (KI : expand P (extract P None (x_dh P (snd uskI) (snd (sdc_upk certR)) ++ x_dh P e0 (snd (sdc_upk certR)) ++
                 x_dh P (snd uskI) p1 ++ x_dh P e0 p1)) (ssid ++ p0 ++ p1) 32 = k).
  { unfold k, zR. rewrite XI, XR. unfold p0, p1.
    rewrite (DH (snd uskR) (snd uskI)), (DH (snd uskR) e0), (DH e1 (snd uskI)), (DH e1 e0). reflexivity. }
  assert (PA0 : sd_parse P m0 = Ret (p0, sign P Ed25519 (fst uskI) ([0] ++ ssid ++ p0), certI))
    by (apply sd_parse_ok; [apply x_pub_length|apply sign_length|exact WI]).
  assert (PA1 : sd_parse P m1 = Ret (p1, sign P Ed25519 (fst uskR) ([1] ++ ssid ++ p1), certR))
    by (apply sd_parse_ok; [apply x_pub_length|apply sign_length|exact WR]).
  set (A0 := SigDh ssid certI mpk uskI None None None None 0 false).
  set (B0 := SigDh ssid certR mpk uskR None None None None 1 false).
  set (A1 := SigDh ssid certI mpk uskI (Some e0) (Some p0) None None 2 false).
  set (B1 := SigDh ssid certR mpk uskR None None (Some k) (Some idI) 3 true).
  set (A2 := SigDh ssid certI mpk uskI (Some e0) (Some p0) (Some k) (Some idR) 4 true).
  assert (R0 : sd_run P A0 (fst (tape 0%nat)) (snd (tape 0%nat)) [] = Ret (A1, Ok (Some m0), fst (tape 0%nat))) by reflexivity.
  assert (R1 : sd_run P B0 (fst (tape 1%nat)) (snd (tape 1%nat)) m0 = Ret (B1, Ok (Some m1), fst (tape 1%nat))).
  { unfold sd_run, B0. cbn [sd_step sd_mpk sd_ssid]. rewrite PA0. cbn [obind]. rewrite VI. cbn [negb]. rewrite SI. cbn [negb].
    unfold B1. rewrite <- II. reflexivity. }
  assert (R2 : sd_run P A1 (fst (tape 2%nat)) (snd (tape 2%nat)) m1 = Ret (A2, Ok None, fst (tape 2%nat))).
  { unfold sd_run, A1. cbn [sd_step sd_mpk sd_ssid sd_eph_sk sd_eph_pk unwrap]. rewrite PA1. cbn [obind]. rewrite VR. cbn [negb]. rewrite SR. cbn [negb obind].
    unfold A2. rewrite <- IR, <- KI. reflexivity. }
  exists [m0; m1], A2, B1, k. split; [|split; [reflexivity|]].
  - cbn [IdSigDh ik_new]. unfold sd_new. cbn [fst first_step]. fold A0 B0.
    unfold honest_run. apply (drive_I (ibke_machine (IdSigDh P)) _ _ _ _ _ A1).
    { reflexivity. } { cbn [m_run ibke_machine ik_run IdSigDh]. rewrite R0. reflexivity. }
    apply (drive_R (ibke_machine (IdSigDh P)) _ _ _ _ _ B1).
    { reflexivity. } { cbn [m_run ibke_machine ik_run IdSigDh opt_bytes]. change (shift tape 0%nat) with (tape 1%nat). rewrite R1. reflexivity. }
    apply (drive_I (ibke_machine (IdSigDh P)) _ _ _ _ _ A2).
    { reflexivity. } { cbn [m_run ibke_machine ik_run IdSigDh opt_bytes]. change (shift (shift tape) 0%nat) with (tape 2%nat). rewrite R2. reflexivity. }
    apply drive_done_R. reflexivity.
  - split; [|cbn [IdSigDh ik_done ik_fin sd_done sd_id sd_key A2 B1 unwrap obind]; repeat (split; [reflexivity|]); apply expand_length].
    assert (NE : forall a (b : bytes), List.length a = 32%nat -> a ++ b <> []) by (intros [|x a] b H; discriminate).
    repeat constructor; apply NE, x_pub_length.
Qed.

(* ---------------------------------------------------------------- C28 *)
(** What a message must be to authenticate the peer [id] to a session with main key [mpk] and
    ssid: an ephemeral key, a signature on the tag, ssid and that key by the certified key, and
    a certificate of that key for [id] signed under the main key. *)
Definition sd_authentic (P : prims) (mpk ssid : bytes) (tag : Z) (m id : bytes) : Prop :=
  exists eph sg pk dh csig,
    m = eph ++ sg ++ id ++ pk ++ dh ++ csig /\
    List.length eph = 32%nat /\ List.length sg = 64%nat /\ List.length id = 32%nat /\
    List.length pk = 32%nat /\ List.length dh = 32%nat /\ List.length csig = 64%nat /\
    verify P Ed25519 mpk (id ++ pk ++ dh) csig = true /\
    verify P Ed25519 pk ([tag] ++ ssid ++ eph) sg = true.

Definition sd_fixed (ssid mpk : bytes) cert usk (s : sigdh) : Prop :=
  sd_ssid s = ssid /\ sd_mpk s = mpk /\ sd_cert_ s = cert /\ sd_usk s = usk.
Lemma sd_auth_of : forall P mpk ssid tag m eph sg c,
  sd_parse P m = Ret (eph, sg, c) -> sd_cert_valid P mpk c = true ->
  verify P Ed25519 (fst (sdc_upk c)) ([tag] ++ ssid ++ eph) sg = true ->
  sd_authentic P mpk ssid tag m (sdc_id c).
Proof.
  intros P mpk ssid tag m eph sg [id [pk dh] cs] H V S. apply sd_parse_inv in H. destruct H as [-> [L1 [L2 [L3 [L4 [L5 [L6 _]]]]]]].
  cbn [sdc_id sdc_upk sdc_sig fst snd] in *. exists eph, sg, pk, dh, cs. repeat split; assumption.
Qed.

Section Step.
Variables (P : prims) (rl : role) (ssid mpk : bytes) (cert : sd_cert) (usk : bytes * bytes).
(** Every call that returns, by cases. *)
Definition sd_inv (l : log (ibke_machine (IdSigDh P))) (s : sigdh) : Prop :=
  sd_fixed ssid mpk cert usk s /\
  (sd_done s = false -> sd_key s = None /\
     (sd_step s = first_step rl \/ (rl = Initiator /\ sd_step s = 2%nat))) /\
  (sd_done s = true -> (3 <= sd_step s)%nat /\ exists m o id k, In (m, Ok o) l /\
     sd_authentic P mpk ssid (match rl with Initiator => 1 | Responder => 0 end) m id /\
     sd_id s = Some id /\ sd_key s = Some k).
Lemma sd_inv_step : forall l s r os m s' o r', sd_inv l s -> sd_run P s r os m = Ret (s', o, r') ->
  sd_inv (l ++ [(m, o)]) s' /\ sd_step s' = (match o with Ok _ => sd_step s + 2 | Err _ => sd_step s end)%nat.
Proof.
  intros l s r os m s' o r' [F [NF DN]] E.
  destruct (sd_done s) eqn:D.
  { destruct (DN eq_refl) as [S3 _]. unfold sd_run in E. destruct (sd_step s) as [|[|[|n]]]; try lia; discriminate E. }
  destruct (NF eq_refl) as [KN ST]. unfold sd_run in E. unfold sd_inv.
  destruct (sd_step s) as [|[|[|n]]] eqn:ES; [| | |discriminate E].
  - obi E. injection E as <- <- <-. cbn [sd_done sd_step sd_key]. split; [|lia].
    split; [exact F|]. split; [|congruence]. intros _. split; [exact KN|]. right. split; [|lia].
    destruct ST as [ST|[-> _]]; [|reflexivity]. destruct rl; [reflexivity|discriminate ST].
  - assert (RR : rl = Responder). { destruct ST as [ST|[_ ST]]; [|discriminate]. destruct rl; [discriminate ST|reflexivity]. }
    obi E. destruct (sd_cert_valid P (sd_mpk s) _) eqn:V; cbn [negb] in E.
    2:{ injection E as <- <- <-. split; [|symmetry; auto]. split; [exact F|]. split; [intros _; rewrite ES; auto|congruence]. }
    destruct (verify P Ed25519 _ _ _) eqn:W in E; cbn [negb] in E.
    2:{ injection E as <- <- <-. cbn [sd_done sd_step sd_key]. split; [|lia]. split; [exact F|]. split; [intros _; auto|congruence]. }
    obi E. injection E as <- <- <-. cbn [sd_done sd_step sd_key sd_id]. split; [|lia].
    split; [exact F|]. split; [congruence|]. intros _. split; [lia|]. do 4 eexists.
    split; [apply in_or_app; right; left; reflexivity|]. split; [|split; reflexivity].
    rewrite RR. destruct F as [F1 [F2 _]]. rewrite F1 in W. rewrite F2 in V. eapply sd_auth_of; eassumption.
  - assert (RR : rl = Initiator). { destruct ST as [ST|[ST _]]; [destruct rl; discriminate ST|exact ST]. }
    obi E. destruct (sd_cert_valid P (sd_mpk s) _) eqn:V; cbn [negb] in E.
    2:{ injection E as <- <- <-. split; [|symmetry; auto]. split; [exact F|]. split; [intros _; rewrite ES; auto|congruence]. }
    destruct (verify P Ed25519 _ _ _) eqn:W in E; cbn [negb] in E.
    2:{ injection E as <- <- <-. cbn [sd_done sd_step sd_key]. split; [|lia]. split; [exact F|]. split; [intros _; auto|congruence]. }
    obi E. injection E as <- <- <-. cbn [sd_done sd_step sd_key sd_id]. split; [|lia].
    split; [exact F|]. split; [congruence|]. intros _. split; [lia|]. do 4 eexists.
    split; [apply in_or_app; right; left; reflexivity|]. split; [|split; reflexivity].
    rewrite RR. destruct F as [F1 [F2 _]]. rewrite F1 in W. rewrite F2 in V. eapply sd_auth_of; eassumption.
Qed.
Lemma sd_inv_hist : forall r l s,
  hist (ibke_machine (IdSigDh P)) (fst (ik_new (IdSigDh P) r ssid mpk cert usk rl)) l s -> sd_inv l s.
Proof.
  intros r l s H. induction H as [|l s rr m s' o H IH E].
  - cbn [IdSigDh ik_new]. unfold sd_new. cbn [fst]. unfold sd_inv, sd_fixed. cbn [sd_ssid sd_mpk sd_cert_ sd_usk sd_done sd_key sd_step].
    repeat split; auto; congruence.
  - cbn [m_run ibke_machine IdSigDh ik_run] in E. obi E. injection E as <- <-.
    eapply sd_inv_step; eassumption.
Qed.
End Step.

(** A done session, whatever messages it was given in whatever order, accepted one that
    authenticates the id it outputs. *)
Theorem sig_dh_done_authentic : forall P r ssid mpk cert usk rl l s,
  hist (ibke_machine (IdSigDh P)) (fst (ik_new (IdSigDh P) r ssid mpk cert usk rl)) l s ->
  ik_done (IdSigDh P) s = true ->
  exists m o id k, In (m, Ok o) l /\ ik_fin (IdSigDh P) s = Ret (id, k) /\
    sd_authentic P mpk ssid (match rl with Initiator => 1 | Responder => 0 end) m id.
Proof.
  intros P r ssid mpk cert usk rl l s H D. apply sd_inv_hist in H. destruct H as [_ [_ H]].
  destruct (H D) as [_ [m [o [id [k [I [A [E1 E2]]]]]]]]. exists m, o, id, k. split; [exact I|]. split; [|exact A].
  cbn [IdSigDh ik_fin]. rewrite E1, E2. reflexivity.
Qed.

(* ---------------------------------------------------------------- C29 *)
Theorem sig_dh_finalize_iff_done : forall P, ibke_fin_iff_done (IdSigDh P).
Proof.
  intros P s0 s [rm [mpk [msk [rm' [id [cert [usk [r [ssid [rl [_ [_ [_ ->]]]]]]]]]]]]] R.
  apply reach_hist in R. destruct R as [l H]. apply sd_inv_hist in H. destruct H as [_ [NF DN]].
  cbn [IdSigDh ik_done ik_fin IST] in *. split.
  - intro D. destruct (DN D) as [_ [m [o [i [k [_ [_ [E1 E2]]]]]]]]. exists i, k. rewrite E1, E2. reflexivity.
  - intros [i [k E]]. destruct (sd_done s) eqn:D; [reflexivity|]. destruct (NF eq_refl) as [K _]. rewrite K in E.
    destruct (sd_id s); discriminate E.
Qed.

(* ---------------------------------------------------------------- C30, C31 *)
Lemma sd_mixed_cert : forall P s0 s, mixed (IdSigDh P) s0 s -> sd_cert_ s = sd_cert_ s0.
Proof.
  intros P s0 s H. induction H as [|s r os m s' o r' H IH E|s s' n H IH E]; [reflexivity| |].
  - rewrite <- IH. cbn [IdSigDh ik_run] in E. unfold sd_run in E. destruct (sd_step s) as [|[|[|n]]]; [| | |discriminate E]; obi E;
    repeat match type of E with (if ?b then _ else _) = _ => destruct b; [injection E as <- <- <-; reflexivity|] end;
    obi E; injection E as <- <- <-; reflexivity.
  - rewrite <- IH. cbn [IdSigDh ik_sim] in E. unfold sd_sim in E. destruct (sd_step s) as [|[|[|k]]]; [| | |discriminate E];
    injection E as <- <-; reflexivity.
Qed.
Local Opaque bytes_of.
Theorem sig_dh_sim_size : forall P, sig_correct P Ed25519 -> sim_predicts_size (IdSigDh P).
Proof.
  intros P C s0 s [rm [mpk [msk [rm' [id [cert [usk [r0 [ssid [rl [GM [L [EN ->]]]]]]]]]]]]] MX r os m s' out r' E.
  destruct (sd_enrolled P rm mpk msk rm' id cert usk C GM L EN) as [W _].
  apply sd_mixed_cert in MX. cbn [IdSigDh ik_new sd_new fst sd_cert_] in MX. 
  assert (LC : List.length (sd_cert_to_bytes (sd_cert_ s)) = 160%nat)
    by (rewrite MX; apply (sd_cert_roundtrip P cert W)).
  cbn [IdSigDh ik_run ik_sim IST] in *. unfold sd_run in E. unfold sd_sim.
  destruct (sd_step s) as [|[|[|n]]]; [| | |discriminate E]; obi E;
    repeat match type of E with (if ?b then _ else _) = _ => destruct b; [discriminate E|] end;
    obi E; injection E as _ <- _; eexists; cbn [option_map]; rewrite ?app_length, ?x_pub_length, ?sign_length, ?LC; reflexivity.
Qed.
Theorem sig_dh_sim_completes : forall P, sim_completes (IdSigDh P).
Proof.
  intros P s0 s FS MX r os m s' out r' s'' n E F. clear FS MX.
  cbn [IdSigDh ik_run ik_sim ik_done IST] in *. unfold sd_run in E. unfold sd_sim in F.
  destruct (sd_step s) as [|[|[|k]]]; [| | |discriminate E]; obi E;
    repeat match type of E with (if ?b then _ else _) = _ => destruct b; [discriminate E|] end;
    obi E; injection E as <- _ _; injection F as <- _; reflexivity.
Qed.

(* ---------------------------------------------------------------- C37 *)
Theorem sig_dh_steps : forall P r ssid mpk cert usk rl,
  disciplined (ibke_machine (IdSigDh P)) sd_step rl (fst (ik_new (IdSigDh P) r ssid mpk cert usk rl)).
Proof.
  intros P r ssid mpk cert usk rl.
  apply (disciplined_by (ibke_machine (IdSigDh P)) sd_step rl _ (fun s => exists l, sd_inv P rl ssid mpk cert usk l s)).
  - reflexivity.
  - exists []. apply (sd_inv_hist P rl ssid mpk cert usk r). constructor.
  - intros s rr m s' o [l IV] E. cbn [m_run ibke_machine IdSigDh ik_run] in E. obi E. injection E as <- ->.
    destruct (sd_inv_step _ _ _ _ _ _ _ _ _ _ _ _ _ _ IV E0) as [A B]. split; [eexists; exact A|exact B].
  - intros s rr m s' o [l IV] E. cbn [m_run ibke_machine IdSigDh ik_run] in E. obi E. injection E as <- ->.
    destruct (sd_inv_step _ _ _ _ _ _ _ _ _ _ _ _ _ _ IV E0) as [A B]. split; [eexists; exact A|exact B].
  - intros s rr m [l [_ [_ DN]]] D. destruct (DN D) as [S _]. cbn [m_run ibke_machine IdSigDh ik_run]. unfold sd_run.
    destruct (sd_step s) as [|[|[|n]]]; try lia. reflexivity.
Qed.
