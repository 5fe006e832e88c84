(** * PropsHmqv: ID-HMQV-C (C24, and its parts of C27-C31 and C37). *)
From Coq Require Import ZArith List Lia Bool String.
From Verif Require Import Base Crypto Symmetric PropsSym Driver Pakes Ibkes IbkeSpec PropsSigDh.
Import ListNotations.
Open Scope Z_scope.
Local Opaque bytes_of.

Section H.
Variables (P : prims) (G : group).

(* ---------------------------------------------------------------- C27 *)
Definition hm_cert_wf (c : hm_cert G) : Prop :=
  List.length (hmc_id c) = 32%nat /\ List.length (hmc_sig c) = 64%nat.
Theorem hm_cert_roundtrip : group_laws G -> forall c, hm_cert_wf c ->
  hm_cert_from_bytes G (hm_cert_to_bytes G c) = Ret c /\ List.length (hm_cert_to_bytes G c) = 128%nat.
Proof.
  intros L [id upk sg] [L1 L2]. unfold hm_cert_from_bytes, hm_cert_to_bytes. cbn [hmc_id hmc_upk hmc_sig] in *. split.
  - rewrite split_at_app by exact L1. cbn [obind]. rewrite split_at_app by apply compress_length. cbn [obind].
    rewrite decompress_compress by exact L. cbn [obind]. unfold ed_sig_from_bytes. rewrite copy_exact_ok by exact L2. reflexivity.
  - rewrite !app_length, compress_length. lia.
Qed.
Theorem hm_cert_decode_exact : group_laws G -> forall b c, hm_cert_from_bytes G b = Ret c ->
  b = hm_cert_to_bytes G c /\ hm_cert_wf c /\ List.length b = 128%nat.
Proof.
  intros L b c H. unfold hm_cert_from_bytes in H. obi H.
  repeat match goal with X : split_at _ _ = Ret _ |- _ => apply split_at_inv in X; destruct X as [-> ?] end.
  match goal with X : decompress _ _ = Ret _ |- _ => apply (decompress_inv G _ _ L) in X; subst end.
  match goal with X : ed_sig_from_bytes _ = Ret _ |- _ => apply copy_exact_inv in X; destruct X as [-> ?] end.
  injection H as <-. unfold hm_cert_to_bytes, hm_cert_wf, ID_LEN in *. cbn [hmc_id hmc_upk hmc_sig].
  split; [reflexivity|]. split; [auto|]. rewrite !app_length, compress_length. lia.
Qed.
Corollary hm_cert_wrong_length_panics : group_laws G -> forall b, List.length b <> 128%nat -> hm_cert_from_bytes G b = Panic.
Proof.
  intros L b H. destruct (hm_cert_from_bytes G b) as [c|] eqn:E; [|reflexivity].
  apply (hm_cert_decode_exact L) in E. tauto.
Qed.

Lemma hm_enrolled : forall rm mpk msk rm' id cert usk,
  sig_correct P Ed25519 -> gen_main (IdHmqvC P G) rm = (mpk, msk, rm') ->
  List.length id = 32%nat -> enrolled (IdHmqvC P G) msk id cert usk ->
  hm_cert_wf cert /\ hmc_id cert = id /\ hm_cert_valid P G mpk cert = true /\ hmc_upk cert = g_base G usk.
Proof.
  intros rm mpk msk rm' id cert usk C GM L [ru [upk [ru' [re [re' [GU EX]]]]]].
  cbn [IdHmqvC gen_main gen_user ik_extract] in *. unfold hm_gen_user in GU. unfold hm_extract in EX.
  destruct (keygen_ok _ _ _ _ _ _ C GM) as [VM _].
  destruct (s_random G ru) as [u r1]. injection GU as <- <- _. injection EX as <- _.
  unfold hm_cert_wf, hm_cert_valid. cbn [hmc_id hmc_upk hmc_sig]. repeat split; auto; apply sign_length.
Qed.

(** The shared point, as each side computes it. *)
Definition hm_sigma (eph upk : point G) (c_peer : scalar G) (x usk c_own : scalar G) : point G :=
  g_mul G (g_add G eph (g_mul G upk c_peer)) (s_add G x (s_mul G c_own usk)).
Lemma hm_sigma_sym : group_laws G -> forall x y u v d e,
  hm_sigma (g_base G x) (g_base G u) d y v e = hm_sigma (g_base G y) (g_base G v) e x u d.
Proof.
  intros L x y u v d e. unfold hm_sigma. rewrite !(gl_base_mul G L), !(gl_base_add G L), !(gl_base_mul G L).
  f_equal. rewrite (gl_smul_comm G L). rewrite (gl_smul_comm G L u d), (gl_smul_comm G L v e). reflexivity.
Qed.
Definition hm_mac0 (ssid : bytes) (sg : point G) : bytes := expand P (compress G sg) (ssid ++ str "mac0") 32.
Definition hm_mac1 (ssid : bytes) (sg : point G) : bytes := expand P (compress G sg) (ssid ++ str "mac1") 32.
Definition hm_skey (ssid : bytes) (sg : point G) : bytes := expand P (compress G sg) (ssid ++ str "sess key") 32.
Lemma hm_derive_ok : forall ssid sg, hm_derive P G ssid sg = Ret (hm_mac0 ssid sg, hm_mac1 ssid sg, hm_skey ssid sg).
Proof. intros. unfold hm_derive. rewrite from_prk_ok by (rewrite compress_length; lia). reflexivity. Qed.

(** The honest run, step by step. *)
Lemma hm_honest_steps : sig_correct P Ed25519 -> group_laws G ->
  forall rm mpk msk rm' idI idR certI certR uskI uskR ssid (r0 r1 : rng),
  gen_main (IdHmqvC P G) rm = (mpk, msk, rm') -> List.length idI = 32%nat -> List.length idR = 32%nat ->
  enrolled (IdHmqvC P G) msk idI certI uskI -> enrolled (IdHmqvC P G) msk idR certR uskR ->
  exists m0 m1 m2 A1 A2 B1 B2 k r0' r1',
    (forall os, hm_run P G (Hmqv ssid certI mpk uskI None None None None None 0 false) r0 os [] = Ret (A1, Ok (Some m0), r0')) /\
    (forall os, hm_run P G (Hmqv ssid certR mpk uskR None None None None None 1 false) r1 os m0 = Ret (B1, Ok (Some m1), r1')) /\
    (forall r os, hm_run P G A1 r os m1 = Ret (A2, Ok (Some m2), r)) /\
    (forall r os, hm_run P G B1 r os m2 = Ret (B2, Ok None, r)) /\
    m0 <> [] /\ m1 <> [] /\ m2 <> [] /\ List.length k = 32%nat /\
    hm_done A1 = false /\ hm_done A2 = true /\ hm_done B1 = false /\ hm_done B2 = true /\
    hm_id A2 = Some idR /\ hm_id B1 = Some idI /\ hm_id B2 = Some idI /\
    hm_key A2 = Some k /\ hm_key B1 = Some k /\ hm_key B2 = Some k.
Proof.
  intros C L rm mpk msk rm' idI idR certI certR uskI uskR ssid r0 r1 GM LI LR EI ER.
  destruct (hm_enrolled rm mpk msk rm' idI certI uskI C GM LI EI) as [WI [II [VI XI]]].
  destruct (hm_enrolled rm mpk msk rm' idR certR uskR C GM LR ER) as [WR [IR [VR XR]]].
  set (x := fst (s_random G r0)). set (y := fst (s_random G r1)).
  set (d := s_from_hash P G (compress G (g_base G x) ++ idR)). set (e := s_from_hash P G (compress G (g_base G y) ++ idI)).
  set (sg := hm_sigma (g_base G x) (g_base G uskI) d y uskR e).
  set (m0 := compress G (g_base G x) ++ hm_cert_to_bytes G certI).
  set (m1 := compress G (g_base G y) ++ hm_mac1 ssid sg ++ hm_cert_to_bytes G certR).
  set (A1 := Hmqv ssid certI mpk uskI (Some x) (Some (g_base G x)) None None None 2 false).
  set (B1 := Hmqv ssid certR mpk uskR None None (Some (hm_mac0 ssid sg, hm_mac1 ssid sg)) (Some (hm_skey ssid sg)) (Some idI) 3 false).
  set (A2 := Hmqv ssid certI mpk uskI (Some x) (Some (g_base G x)) None (Some (hm_skey ssid sg)) (Some idR) 4 true).
  set (B2 := Hmqv ssid certR mpk uskR None None (Some (hm_mac0 ssid sg, hm_mac1 ssid sg)) (Some (hm_skey ssid sg)) (Some idI) 5 true).
  exists m0, m1, (hm_mac0 ssid sg), A1, A2, B1, B2, (hm_skey ssid sg), (snd (s_random G r0)), (snd (s_random G r1)).
  assert (NE : forall a (b : bytes), List.length a = 32%nat -> a ++ b <> []) by (intros [|q a] b H; discriminate).
  split; [|split; [|split; [|split; [|repeat split]]]].
  - intro os. unfold hm_run. cbn [hm_step List.length Nat.eqb assert_]. unfold hm_gen_user.
    unfold A1, m0, x. destruct (s_random G r0) as [x0 rx]. reflexivity.
  - intro os. unfold hm_run. cbn [hm_step]. unfold m0. rewrite split_at_app by apply compress_length. cbn [obind].
    rewrite decompress_compress by exact L. cbn [obind]. rewrite (proj1 (hm_cert_roundtrip L certI WI)). cbn [obind hm_mpk].
    rewrite VI. cbn [negb]. unfold hm_gen_user.
    unfold B1, m1, sg, d, e, y, hm_sigma. destruct (s_random G r1) as [y0 ry]. cbn [fst snd].
    cbn [hm_cert_ hm_ssid hm_usk]. rewrite II, IR, XI, hm_derive_ok. reflexivity.
  - intros r os. unfold hm_run, A1. cbn [hm_step]. unfold m1. rewrite split_at_app by apply compress_length. cbn [obind].
    rewrite split_at_app by apply expand_length. cbn [obind].
    rewrite decompress_compress by exact L. cbn [obind]. rewrite (proj1 (hm_cert_roundtrip L certR WR)). cbn [obind hm_mpk].
    rewrite VR. cbn [negb hm_eph_pk hm_eph_sk unwrap obind hm_cert_ hm_usk hm_ssid]. rewrite II, IR, XR. fold d e.
    change (g_mul G (g_add G (g_base G y) (g_mul G (g_base G uskR) e)) (s_add G x (s_mul G d uskI)))
      with (hm_sigma (g_base G y) (g_base G uskR) e x uskI d).
    rewrite <- hm_sigma_sym by exact L. fold sg. rewrite hm_derive_ok. cbn [obind]. rewrite beq_refl. reflexivity.
  - intros r os. unfold hm_run, B1. cbn [hm_step hm_macs unwrap obind]. rewrite beq_refl. reflexivity.
  - apply NE, compress_length.
  - apply NE, compress_length.
  - apply (nonempty_of_length _ 31). apply expand_length.
Qed.

(* ---------------------------------------------------------------- C24 *)
Theorem hmqv_agreement : sig_correct P Ed25519 -> group_laws G -> honest_agreement (IdHmqvC P G) 3 (fun _ => True).
Proof.
  intros C L rm mpk msk rm' idI idR certI certR uskI uskR ssid rI rR tape GM LI LR EI ER _.
  destruct (hm_honest_steps C L rm mpk msk rm' idI idR certI certR uskI uskR ssid (fst (tape 0%nat)) (fst (tape 1%nat)) GM LI LR EI ER) as
    [m0 [m1 [m2 [A1 [A2 [B1 [B2 [k [r0' [r1' [R0 [R1 [R2 [R3 [N0 [N1 [N2 [LK [DA1 [DA2 [DB1 [DB2 [IA2 [_ [IB2 [KA2 [_ KB2]]]]]]]]]]]]]]]]]]]]]]]]]]].
  exists [m0; m1; m2], A2, B2, k. split; [|split; [reflexivity|]].
  - cbn [IdHmqvC ik_new]. unfold hm_new. cbn [fst first_step].
    unfold honest_run. apply (drive_I (ibke_machine (IdHmqvC P G)) _ _ _ _ _ A1).
    { reflexivity. } { cbn [m_run ibke_machine ik_run IdHmqvC]. rewrite R0. reflexivity. }
    apply (drive_R (ibke_machine (IdHmqvC P G)) _ _ _ _ _ B1).
    { reflexivity. } { cbn [m_run ibke_machine ik_run IdHmqvC opt_bytes]. change (shift tape 0%nat) with (tape 1%nat). rewrite R1. reflexivity. }
    apply (drive_I (ibke_machine (IdHmqvC P G)) _ _ _ _ _ A2).
    { exact DA1. } { cbn [m_run ibke_machine ik_run IdHmqvC opt_bytes]. rewrite R2. reflexivity. }
    apply (drive_R (ibke_machine (IdHmqvC P G)) _ _ _ _ _ B2).
    { exact DB1. } { cbn [m_run ibke_machine ik_run IdHmqvC opt_bytes]. rewrite R3. reflexivity. }
    apply drive_done_I. exact DA2.
  - cbn [IdHmqvC ik_done ik_fin]. rewrite IA2, IB2, KA2, KB2. repeat split; auto.
Qed.

(* ---------------------------------------------------------------- C28 *)
(** A verified certificate for [id] with user key [upk], as it travels. *)
Definition hm_certified (mpk : bytes) (b id : bytes) (upk : point G) : Prop :=
  exists csig, b = id ++ compress G upk ++ csig /\ List.length id = 32%nat /\ List.length csig = 64%nat /\
    verify P Ed25519 mpk (id ++ compress G upk) csig = true.
(** The message that completes an initiator whose ephemeral secret is x. *)
Definition hm_confirms_I (mpk ssid my_id : bytes) (usk x : scalar G) (m id k : bytes) : Prop :=
  exists eph upk certb,
    let d := s_from_hash P G (compress G (g_base G x) ++ id) in
    let e := s_from_hash P G (compress G eph ++ my_id) in
    let sg := hm_sigma eph upk e x usk d in
    m = compress G eph ++ hm_mac1 ssid sg ++ certb /\ hm_certified mpk certb id upk /\ k = hm_skey ssid sg.
(** The two messages that complete a responder whose ephemeral secret is y. *)
Definition hm_confirms_R (mpk ssid my_id : bytes) (usk y : scalar G) (m m' id k : bytes) : Prop :=
  exists eph upk certb,
    let d := s_from_hash P G (compress G eph ++ my_id) in
    let e := s_from_hash P G (compress G (g_base G y) ++ id) in
    let sg := hm_sigma eph upk d y usk e in
    m = compress G eph ++ certb /\ hm_certified mpk certb id upk /\ m' = hm_mac0 ssid sg /\ k = hm_skey ssid sg.

Definition hm_fixed (ssid mpk : bytes) cert usk (s : hmqv G) : Prop :=
  hm_ssid s = ssid /\ hm_mpk s = mpk /\ hm_cert_ s = cert /\ hm_usk s = usk.
Definition hm_inv (rl : role) (ssid mpk : bytes) (cert : hm_cert G) (usk : scalar G)
  (l : log (ibke_machine (IdHmqvC P G))) (s : hmqv G) : Prop :=
  hm_fixed ssid mpk cert usk s /\
  match rl with
  | Initiator =>
    (hm_step s = 0%nat /\ hm_done s = false) \/
    (exists x m0, In (m0, Ok (Some (compress G (g_base G x) ++ hm_cert_to_bytes G cert))) l /\
       ((hm_step s = 2%nat /\ hm_done s = false /\ hm_eph_sk s = Some x /\ hm_eph_pk s = Some (g_base G x)) \/
        (hm_step s = 4%nat /\ hm_done s = true /\ exists m o id k, In (m, Ok o) l /\
           hm_confirms_I mpk ssid (hmc_id cert) usk x m id k /\ hm_id s = Some id /\ hm_key s = Some k)))
  | Responder =>
    (hm_step s = 1%nat /\ hm_done s = false) \/
    (exists y m mac1 id k m', In (m, Ok (Some (compress G (g_base G y) ++ mac1 ++ hm_cert_to_bytes G cert))) l /\
       hm_confirms_R mpk ssid (hmc_id cert) usk y m m' id k /\ hm_id s = Some id /\ hm_key s = Some k /\
       ((hm_step s = 3%nat /\ hm_done s = false /\ hm_macs s = Some (m', mac1)) \/
        (hm_step s = 5%nat /\ hm_done s = true /\ In (m', Ok None) l)))
  end.
Lemma hm_certified_of : group_laws G -> forall mpk b c, hm_cert_from_bytes G b = Ret c ->
  hm_cert_valid P G mpk c = true -> hm_certified mpk b (hmc_id c) (hmc_upk c).
Proof.
  intros L mpk b [id upk sg] H V. apply (hm_cert_decode_exact L) in H. destruct H as [-> [[W1 W2] _]].
  exists sg. cbn [hmc_id hmc_upk hmc_sig] in *. unfold hm_cert_to_bytes. cbn [hmc_id hmc_upk hmc_sig]. auto.
Qed.
Lemma in_snoc : forall {A} (x y : A) l, In x l -> In x (l ++ [y]).
Proof. intros. apply in_or_app. auto. Qed.
Lemma in_last : forall {A} (x : A) l, In x (l ++ [x]).
Proof. intros. apply in_or_app. right. left. reflexivity. Qed.

Lemma hm_inv_step : group_laws G -> forall rl ssid mpk cert usk l s r os m s' o r',
  hm_inv rl ssid mpk cert usk l s -> hm_run P G s r os m = Ret (s', o, r') ->
  hm_inv rl ssid mpk cert usk (l ++ [(m, o)]) s' /\
  hm_step s' = (match o with Ok _ => hm_step s + 2 | Err _ => hm_step s end)%nat.
Proof.
  intros L rl ssid mpk cert usk l s r os m s' o r' [F H] E. unfold hm_run in E. unfold hm_inv.
  pose proof F as [F1 [F2 [F3 F4]]]. rewrite F1, F2, F3, F4 in E.
  destruct rl.
  - destruct H as [[ST D]|[x [m0 [IN [[ST [D [SK PK]]]|[ST [D REST]]]]]]]; rewrite ST in E.
    + obi E. unfold hm_gen_user in E1. destruct (s_random G r) as [x rx]. injection E1 as <- <- <-. injection E as <- <- <-.
      cbn [hm_step hm_done]. split; [|lia]. split; [unfold hm_fixed; cbn; auto|]. right. exists x, m. split; [apply in_last|].
      left. cbn. rewrite D. auto.
    + rewrite SK, PK in E. obi E.
      destruct (hm_cert_valid P G mpk a2) eqn:V; cbn [negb] in E.
      2:{ injection E as <- <- <-. split; [|auto]. split; [exact F|]. right. exists x, m0. split; [apply in_snoc, IN|]. left. auto. }
      cbn [unwrap obind] in E.
      set (sg := g_mul G _ _) in E. rewrite hm_derive_ok in E. cbn [obind] in E.
      apply split_at_inv in E0. destruct E0 as [-> LE]. apply split_at_inv in E2. destruct E2 as [-> LM].
      apply (decompress_inv G _ _ L) in E4. subst l0. pose proof (hm_certified_of L mpk _ _ E5 V) as CT.
      destruct (beq l2 (hm_mac1 ssid sg)) eqn:Q; cbn [negb] in E.
      * apply beq_spec in Q. subst l2. injection E as <- <- <-. cbn [hm_step hm_done]. split; [|lia].
        split; [unfold hm_fixed; cbn; auto|]. right. exists x, m0. split; [apply in_snoc, IN|]. right. split; [lia|]. split; [reflexivity|].
        do 2 eexists. exists (hmc_id a2), (hm_skey ssid sg). split; [apply in_last|]. split; [|split; reflexivity].
        exists a1, (hmc_upk a2), l3. cbn zeta. split; [reflexivity|]. split; [exact CT|reflexivity].
      * injection E as <- <- <-. cbn [hm_step hm_done]. split; [|lia].
        split; [unfold hm_fixed; cbn; auto|]. right. exists x, m0. split; [apply in_snoc, IN|]. left. cbn. auto.
    + discriminate E.
  - destruct H as [[ST D]|[y [m1 [mac1 [id [k [m' [IN [CF [HI [HK [[ST [D MC]]|[ST [D LST]]]]]]]]]]]]]]; rewrite ST in E.
    + obi E. destruct (hm_cert_valid P G mpk a1) eqn:V; cbn [negb] in E.
      2:{ injection E as <- <- <-. split; [|auto]. split; [exact F|]. left. auto. }
      unfold hm_gen_user in E. destruct (s_random G r) as [y ry]. cbn beta iota in E.
      set (sg := g_mul G _ _) in E. rewrite hm_derive_ok in E. cbn [obind] in E.
      apply split_at_inv in E0. destruct E0 as [-> LE].
      apply (decompress_inv G _ _ L) in E2. subst l0. pose proof (hm_certified_of L mpk _ _ E3 V) as CT.
      injection E as <- <- <-. cbn [hm_step hm_done]. split; [|lia].
      split; [unfold hm_fixed; cbn; auto|]. right.
      exists y, (compress G a0 ++ l1), (hm_mac1 ssid sg), (hmc_id a1), (hm_skey ssid sg), (hm_mac0 ssid sg).
      split; [apply in_last|]. split; [|split; [reflexivity|split; [reflexivity|]]].
      * exists a0, (hmc_upk a1), l1. cbn zeta. split; [reflexivity|]. split; [exact CT|split; reflexivity].
      * left. split; [lia|]. split; [exact D|reflexivity].
    + rewrite MC in E. cbn [unwrap obind] in E. destruct (beq m m') eqn:Q; cbn [negb] in E.
      * apply beq_spec in Q. subst m'. injection E as <- <- <-. cbn [hm_step hm_done]. split; [|lia].
        split; [unfold hm_fixed; cbn; auto|]. right. exists y, m1, mac1, id, k, m. split; [apply in_snoc, IN|].
        split; [exact CF|]. split; [exact HI|]. split; [exact HK|]. right. split; [lia|]. split; [reflexivity|]. apply in_last.
      * injection E as <- <- <-. split; [|auto]. split; [exact F|]. right. exists y, m1, mac1, id, k, m'.
        split; [apply in_snoc, IN|]. split; [exact CF|]. split; [exact HI|]. split; [exact HK|]. left. auto.
    + discriminate E.
Qed.
Lemma hm_inv_hist : group_laws G -> forall r ssid mpk cert usk rl l s,
  hist (ibke_machine (IdHmqvC P G)) (fst (ik_new (IdHmqvC P G) r ssid mpk cert usk rl)) l s ->
  hm_inv rl ssid mpk cert usk l s.
Proof.
  intros L r ssid mpk cert usk rl l s H. induction H as [|l s rr m s' o H IH E].
  - cbn [IdHmqvC ik_new]. unfold hm_new. cbn [fst]. unfold hm_inv, hm_fixed.
    split; [cbn; auto|]. destruct rl; left; split; reflexivity.
  - cbn [m_run ibke_machine IdHmqvC ik_run] in E. obi E. injection E as <- <-.
    eapply hm_inv_step; eassumption.
Qed.
(** A done initiator accepted a message with a certificate of the id it outputs, valid under
    the main key, and with the MAC of the shared point computed from the ephemeral key it sent
    itself; its key is derived from the same point. *)
Theorem hmqv_initiator_done_confirmed : group_laws G -> forall r ssid mpk cert usk l s,
  hist (ibke_machine (IdHmqvC P G)) (fst (ik_new (IdHmqvC P G) r ssid mpk cert usk Initiator)) l s ->
  ik_done (IdHmqvC P G) s = true ->
  exists x m0 m o id k,
    In (m0, Ok (Some (compress G (g_base G x) ++ hm_cert_to_bytes G cert))) l /\ In (m, Ok o) l /\
    ik_fin (IdHmqvC P G) s = Ret (id, k) /\ hm_confirms_I mpk ssid (hmc_id cert) usk x m id k.
Proof.
  intros L r ssid mpk cert usk l s H D. apply (hm_inv_hist L) in H. destruct H as [_ H]. cbn [IdHmqvC ik_done IST] in *.
  destruct H as [[_ D0]|[x [m0 [IN [[_ [D0 _]]|[_ [_ [m [o [id [k [IN' [CF [HI HK]]]]]]]]]]]]]]; [congruence|congruence|].
  exists x, m0, m, o, id, k. repeat split; auto. cbn [IdHmqvC ik_fin]. rewrite HI, HK. reflexivity.
Qed.
(** A done responder accepted a certificate valid under the main key for the id it outputs, and
    later the MAC of the shared point computed from the ephemeral key it sent. *)
Theorem hmqv_responder_done_confirmed : group_laws G -> forall r ssid mpk cert usk l s,
  hist (ibke_machine (IdHmqvC P G)) (fst (ik_new (IdHmqvC P G) r ssid mpk cert usk Responder)) l s ->
  ik_done (IdHmqvC P G) s = true ->
  exists y m mac1 m' id k,
    In (m, Ok (Some (compress G (g_base G y) ++ mac1 ++ hm_cert_to_bytes G cert))) l /\ In (m', Ok None) l /\
    ik_fin (IdHmqvC P G) s = Ret (id, k) /\ hm_confirms_R mpk ssid (hmc_id cert) usk y m m' id k.
Proof.
  intros L r ssid mpk cert usk l s H D. apply (hm_inv_hist L) in H. destruct H as [_ H]. cbn [IdHmqvC ik_done IST] in *.
  destruct H as [[_ D0]|[y [m [mac1 [id [k [m' [IN [CF [HI [HK [[_ [D0 _]]|[_ [_ LST]]]]]]]]]]]]]]; [congruence|congruence|].
  exists y, m, mac1, m', id, k. repeat split; auto. cbn [IdHmqvC ik_fin]. rewrite HI, HK. reflexivity.
Qed.

(* ---------------------------------------------------------------- C29 *)
(** Enrolled users exist for any main key. *)
Lemma hm_enrolled_exists : forall msk id, exists cert usk, enrolled (IdHmqvC P G) msk id cert usk.
Proof.
  intros msk id. destruct (gen_user (IdHmqvC P G) (fun _ => 0)) as [[upk usk] r] eqn:U.
  destruct (ik_extract (IdHmqvC P G) r msk id upk) as [cert r'] eqn:X. exists cert, usk, (fun _ => 0), upk, r, r, r'. auto.
Qed.
(** Refuted: a responder hands out an id and a key after the first message, before any key
    confirmation. *)
Theorem hmqv_finalize_refuted : sig_correct P Ed25519 -> group_laws G -> ~ ibke_fin_iff_done (IdHmqvC P G).
Proof.
  intros C L H.
  destruct (gen_main (IdHmqvC P G) (fun _ => 0)) as [[mpk msk] rm'] eqn:GM.
  set (id := repeat 0 32). assert (LI : List.length id = 32%nat) by reflexivity.
  destruct (hm_enrolled_exists msk id) as [cert [usk EN]].
  destruct (hm_honest_steps C L _ mpk msk rm' id id cert cert usk usk [] (fun _ => 0) (fun _ => 0) GM LI LI EN EN) as
    [m0 [m1 [m2 [A1 [A2 [B1 [B2 [k [r0' [r1' [R0 [R1 [R2 [R3 [N0 [N1 [N2 [LK [DA1 [DA2 [DB1 [DB2 [IA2 [IB1 [IB2 [KA2 [KB1 KB2]]]]]]]]]]]]]]]]]]]]]]]]]]].
  set (s0 := fst (ik_new (IdHmqvC P G) (fun _ => 0) [] mpk cert usk Responder)).
  specialize (H s0 B1). destruct H as [_ H].
  - exists (fun _ => 0), mpk, msk, rm', id, cert, usk, (fun _ => 0), [], Responder. auto.
  - eapply (reach_run (ibke_machine (IdHmqvC P G)) s0 s0 (fun _ => 0, fun _ => 0) m0 B1); [constructor|].
    cbn [m_run ibke_machine IdHmqvC ik_run fst snd]. unfold s0. cbn [IdHmqvC ik_new]. unfold hm_new. cbn [fst first_step].
    rewrite R1. reflexivity.
  - cbn [IdHmqvC ik_done ik_fin] in H. rewrite DB1 in H. discriminate H. exists id, k. rewrite IB1, KB1. reflexivity.
Qed.

(* ---------------------------------------------------------------- C30, C31 *)
Lemma hm_mixed_cert : forall s0 s, mixed (IdHmqvC P G) s0 s -> hm_cert_ s = hm_cert_ s0.
Proof.
  intros s0 s H. induction H as [|s r os m s' o r' H IH E|s s' n H IH E]; [reflexivity| |].
  - rewrite <- IH. cbn [IdHmqvC ik_run] in E. unfold hm_run in E. destruct (hm_step s) as [|[|[|[|n]]]]; [| | | |discriminate E]; obi E;
    repeat (match type of E with (if ?b then _ else _) = _ => destruct b; [injection E as <- <- <-; reflexivity|] end; obi E);
    injection E as <- <- <-; reflexivity.
  - rewrite <- IH. cbn [IdHmqvC ik_sim] in E. unfold hm_sim in E. destruct (hm_step s) as [|[|[|[|k]]]]; [| | | |discriminate E];
    injection E as <- <-; reflexivity.
Qed.
Theorem hmqv_sim_size : sig_correct P Ed25519 -> group_laws G -> sim_predicts_size (IdHmqvC P G).
Proof.
  intros C GL s0 s FS MX r os m s' out r' E. 
  pose proof FS as [rm [mpk [msk [rm' [id [cert [usk [r0 [ssid [rl [GM [L [EN ->]]]]]]]]]]]]].
  destruct (hm_enrolled rm mpk msk rm' id cert usk C GM L EN) as [W _].
  apply hm_mixed_cert in MX. cbn [IdHmqvC ik_new hm_new fst hm_cert_] in MX.
  assert (LC : List.length (hm_cert_to_bytes G (hm_cert_ s)) = 128%nat)
    by (rewrite MX; apply (hm_cert_roundtrip GL cert W)).
  cbn [IdHmqvC ik_run ik_sim IST] in *. unfold hm_run in E. unfold hm_sim.
  destruct (hm_step s) as [|[|[|[|n]]]]; [| | | |discriminate E]; obi E;
    repeat (match type of E with (if ?b then _ else _) = _ => destruct b; [discriminate E|] end; obi E);
    try rewrite hm_derive_ok in *;
    repeat match goal with X : Ret (hm_mac0 _ _, _, _) = Ret _ |- _ => injection X as <- <- <- end;
    injection E as _ <- _; eexists; cbn [option_map]; unfold hm_mac0, hm_mac1; rewrite ?app_length, ?compress_length, ?expand_length, ?LC; reflexivity.
Qed.
(** run_sim never completes a session ... *)
Theorem hmqv_sim_never_done : forall s s' n, ik_sim (IdHmqvC P G) s = Ret (s', n) ->
  ik_done (IdHmqvC P G) s' = ik_done (IdHmqvC P G) s.
Proof.
  intros s s' n H. cbn [IdHmqvC ik_sim ik_done] in *. unfold hm_sim in H.
  destruct (hm_step s) as [|[|[|[|k]]]]; [| | | |discriminate H]; injection H as <- _; reflexivity.
Qed.
(** ... although the last step of a real session does: refuted. *)
Theorem hmqv_sim_completes_refuted : sig_correct P Ed25519 -> group_laws G -> ~ sim_completes (IdHmqvC P G).
Proof.
  intros C L H.
  destruct (gen_main (IdHmqvC P G) (fun _ => 0)) as [[mpk msk] rm'] eqn:GM.
  set (id := repeat 0 32). assert (LI : List.length id = 32%nat) by reflexivity.
  destruct (hm_enrolled_exists msk id) as [cert [usk EN]].
  destruct (hm_honest_steps C L _ mpk msk rm' id id cert cert usk usk [] (fun _ => 0) (fun _ => 0) GM LI LI EN EN) as
    [m0 [m1 [m2 [A1 [A2 [B1 [B2 [k [r0' [r1' [R0 [R1 [R2 [R3 [N0 [N1 [N2 [LK [DA1 [DA2 [DB1 [DB2 _]]]]]]]]]]]]]]]]]]]]]].
  set (s0 := fst (ik_new (IdHmqvC P G) (fun _ => 0) [] mpk cert usk Initiator)).
  assert (MX : mixed (IdHmqvC P G) s0 A1).
  { eapply (mixed_run (IdHmqvC P G) s0 s0 (fun _ => 0) (fun _ => 0) []); [constructor|].
    cbn [IdHmqvC ik_run]. unfold s0. cbn [IdHmqvC ik_new]. unfold hm_new. cbn [fst first_step]. apply R0. }
  destruct (ik_sim (IdHmqvC P G) A1) as [[s'' n]|] eqn:SM.
  - assert (E := H s0 A1 ltac:(exists (fun _ => 0), mpk, msk, rm', id, cert, usk, (fun _ => 0), [], Initiator; auto) MX
      (fun _ => 0) (fun _ => 0) m1 A2 (Some m2) (fun _ => 0) s'' n (R2 _ _) SM).
    rewrite (hmqv_sim_never_done _ _ _ SM) in E. cbn [IdHmqvC ik_done] in E. congruence.
  - specialize (R2 (fun _ => 0) (fun _ => 0)). cbn [IdHmqvC ik_sim] in SM. unfold hm_run in R2. unfold hm_sim in SM.
    destruct (hm_step A1) as [|[|[|[|q]]]]; try discriminate SM. discriminate R2.
Qed.

(* ---------------------------------------------------------------- C37 *)
Theorem hmqv_steps : group_laws G -> forall r ssid mpk cert usk rl,
  disciplined (ibke_machine (IdHmqvC P G)) hm_step rl (fst (ik_new (IdHmqvC P G) r ssid mpk cert usk rl)).
Proof.
  intros L r ssid mpk cert usk rl.
  apply (disciplined_by (ibke_machine (IdHmqvC P G)) hm_step rl _ (fun s => exists l, hm_inv rl ssid mpk cert usk l s)).
  - reflexivity.
  - exists []. apply (hm_inv_hist L r). constructor.
  - intros s rr m s' o [l IV] E. cbn [m_run ibke_machine IdHmqvC ik_run] in E. obi E. injection E as <- ->.
    destruct (hm_inv_step L _ _ _ _ _ _ _ _ _ _ _ _ _ IV E0) as [A B]. split; [eexists; exact A|exact B].
  - intros s rr m s' o [l IV] E. cbn [m_run ibke_machine IdHmqvC ik_run] in E. obi E. injection E as <- ->.
    destruct (hm_inv_step L _ _ _ _ _ _ _ _ _ _ _ _ _ IV E0) as [A B]. split; [eexists; exact A|exact B].
  - intros s rr m [l [_ IV]] D. cbn [m_run m_done m_st ibke_machine IdHmqvC ik_run ik_done IST] in *. unfold hm_run.
    destruct rl.
    + destruct IV as [[_ D0]|[x [m0 [_ [[_ [D0 _]]|[-> _]]]]]]; [congruence|congruence|reflexivity].
    + destruct IV as [[_ D0]|[y [m1 [mac1 [id [k [m' [_ [_ [_ [_ [[_ [D0 _]]|[-> _]]]]]]]]]]]]]; [congruence|congruence|reflexivity].
Qed.
End H.
