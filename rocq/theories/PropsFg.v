(** * PropsFg: FG-IBKE-C (C25, and its parts of C28-C31 and C37). *)
From Coq Require Import ZArith List Lia Bool String.
From Verif Require Import Base Crypto Symmetric PropsSym Driver Pakes Ibkes IbkeSpec PropsSigDh PropsHmqv.
Import ListNotations.
Open Scope Z_scope.
Local Opaque bytes_of.

Section F.
Variables (P : prims) (G : group).

(** An extracted certificate: the scalar is that of X plus the hash times the main secret. *)
Lemma fg_enrolled : forall rm mpk msk rm' id cert usk,
  gen_main (FgIbkeC P G) rm = (mpk, msk, rm') -> enrolled (FgIbkeC P G) msk id cert usk ->
  mpk = compress G (g_base G msk) /\ exists x, cert = FgCert id (g_base G x)
    (s_add G x (s_mul G (s_wide G (hash512 P ([2] ++ id ++ compress G (g_base G x)))) msk)).
Proof.
  intros rm mpk msk rm' id cert usk GM [ru [upk [ru' [re [re' [GU EX]]]]]].
  cbn [FgIbkeC gen_main gen_user ik_extract] in *. unfold fg_gen_main in GM. unfold fg_extract in EX.
  destruct (s_random G rm) as [z r1]. injection GM as <- <- _.
  destruct (s_random G re) as [x r2]. injection EX as <- _. split; [reflexivity|]. exists x. reflexivity.
Qed.

(** The two shared points as each side computes them: its own ephemeral secret and long-term
    scalar, the peer's ephemeral point, id and X, and the main public key. *)
Definition fg_alpha (x : scalar G) (eph : point G) : point G := g_mul G eph x.
Definition fg_beta (mpk : point G) (x xhat : scalar G) (eph : point G) (id : bytes) (X : point G) : point G :=
  g_mul G (g_add G (g_add G eph X) (g_mul G mpk (s_wide G (hash512 P ([2] ++ id ++ compress G X))))) (s_add G x xhat).
Definition fg_okm (alpha beta : point G) : bytes := expand P (compress G alpha ++ compress G beta) (str "fg-expand") 96.
Definition fg_mac0 (alpha beta : point G) : bytes := firstn 32 (fg_okm alpha beta).
Definition fg_mac1 (alpha beta : point G) : bytes := firstn 32 (skipn 32 (fg_okm alpha beta)).
Definition fg_skey (alpha beta : point G) : bytes := skipn 64 (fg_okm alpha beta).
Lemma fg_derive_ok : forall a b, fg_derive P G a b = Ret (fg_mac0 a b, fg_mac1 a b, fg_skey a b).
Proof.
  intros a b. unfold fg_derive. rewrite from_prk_ok by (rewrite app_length, !compress_length; lia). cbn [obind].
  fold (fg_okm a b). assert (L : List.length (fg_okm a b) = 96%nat) by apply expand_length.
  unfold split_at at 1. rewrite L. change (64 <=? 96)%nat with true. cbn [obind].
  unfold split_at. rewrite firstn_length, L. change (32 <=? Nat.min 64 96)%nat with true. cbn [obind].
  unfold fg_mac0, fg_mac1, fg_skey. rewrite firstn_firstn. change (Nat.min 32 64) with 32%nat.
  rewrite skipn_firstn_comm. change (64 - 32)%nat with 32%nat. reflexivity.
Qed.
Lemma fg_mac_lengths : forall a b, List.length (fg_mac0 a b) = 32%nat /\ List.length (fg_mac1 a b) = 32%nat /\ List.length (fg_skey a b) = 32%nat.
Proof.
  intros. assert (L : List.length (fg_okm a b) = 96%nat) by apply expand_length.
  unfold fg_mac0, fg_mac1, fg_skey. rewrite !firstn_length, !skipn_length, L. repeat split; reflexivity.
Qed.
Lemma fg_alpha_sym : group_laws G -> forall x y, fg_alpha x (g_base G y) = fg_alpha y (g_base G x).
Proof. intros L x y. unfold fg_alpha. rewrite !(gl_base_mul G L), (gl_smul_comm G L). reflexivity. Qed.
Lemma fg_beta_sym : group_laws G -> forall z x y a b ida idb,
  let ha := s_wide G (hash512 P ([2] ++ ida ++ compress G (g_base G a))) in
  let hb := s_wide G (hash512 P ([2] ++ idb ++ compress G (g_base G b))) in
  fg_beta (g_base G z) x (s_add G a (s_mul G ha z)) (g_base G y) idb (g_base G b) =
  fg_beta (g_base G z) y (s_add G b (s_mul G hb z)) (g_base G x) ida (g_base G a).
Proof.
  intros L z x y a b ida idb ha hb. unfold fg_beta. fold ha hb.
  rewrite !(gl_base_mul G L), !(gl_base_add G L), !(gl_base_mul G L). f_equal.
  rewrite (gl_smul_comm G L). rewrite (gl_smul_comm G L z hb), (gl_smul_comm G L z ha).
  rewrite !(gl_sadd_assoc G L). reflexivity.
Qed.

(** fg_ibke.rs 289-301, as a specification: the final key of a transcript and session key. *)
Definition fg_final (ssid trans k : bytes) : bytes :=
  expand P (extract P (Some (str "fgibke-tr-hash")) (trans ++ k)) (ssid ++ str "fgibke-final") 32.

Lemma fg_honest_steps : group_laws G ->
  forall rm mpk msk rm' idI idR certI certR ssid ssid' (r0 r1 : rng) uI uR,
  gen_main (FgIbkeC P G) rm = (mpk, msk, rm') -> List.length idI = 32%nat -> List.length idR = 32%nat ->
  enrolled (FgIbkeC P G) msk idI certI uI -> enrolled (FgIbkeC P G) msk idR certR uR ->
  exists m0 m1 m2 A1 A2 B1 B2 k r0' r1',
    (forall os, fg_run P G (FgIbke ssid mpk certI [] None None None None None false 0) r0 os [] = Ret (A1, Ok (Some m0), r0')) /\
    (forall os, fg_run P G (FgIbke ssid' mpk certR [] None None None None None false 1) r1 os m0 = Ret (B1, Ok (Some m1), r1')) /\
    (forall r os, fg_run P G A1 r os m1 = Ret (A2, Ok (Some m2), r)) /\
    (forall r os, fg_run P G B1 r os m2 = Ret (B2, Ok None, r)) /\
    m0 <> [] /\ m1 <> [] /\ m2 <> [] /\
    fg_done A1 = false /\ fg_done A2 = true /\ fg_done B1 = false /\ fg_done B2 = true /\
    fg_fin P G A2 = Ret (idR, fg_final ssid (m0 ++ m1 ++ m2) k) /\
    fg_fin P G B1 = Ret (idI, fg_final ssid' (m0 ++ m1) k) /\
    fg_fin P G B2 = Ret (idI, fg_final ssid' (m0 ++ m1 ++ m2) k).
Proof.
  intros L rm mpk msk rm' idI idR certI certR ssid ssid' r0 r1 uI uR GM LI LR EI ER.
  destruct (fg_enrolled rm mpk msk rm' idI certI uI GM EI) as [EM [a EA]].
  destruct (fg_enrolled rm mpk msk rm' idR certR uR GM ER) as [_ [b EB]].
  set (xa := s_add G a (s_mul G (s_wide G (hash512 P ([2] ++ idI ++ compress G (g_base G a)))) msk)) in *.
  set (xb := s_add G b (s_mul G (s_wide G (hash512 P ([2] ++ idR ++ compress G (g_base G b)))) msk)) in *.
  set (x := fst (s_random G r0)). set (y := fst (s_random G r1)).
  set (al := fg_alpha y (g_base G x)).
  set (be := fg_beta (g_base G msk) y xb (g_base G x) idI (g_base G a)).
  set (m0 := idI ++ compress G (g_base G a) ++ compress G (g_base G x)).
  set (m1 := idR ++ compress G (g_base G b) ++ compress G (g_base G y) ++ fg_mac1 al be).
  set (m2 := fg_mac0 al be). set (k := fg_skey al be).
  assert (NE : forall u (v : bytes), List.length u = 32%nat -> u ++ v <> []) by (intros [|q u] v H; discriminate).
  assert (N0 : m0 <> []) by (apply NE, LI). assert (N1 : m1 <> []) by (apply NE, LR).
  assert (N2 : m2 <> []) by (apply (nonempty_of_length _ 31), fg_mac_lengths).
  assert (AB : forall t m o, m <> [] -> fg_absorb t m o = (t ++ m) ++ match o with Some w => w | None => [] end).
  { intros t [|q m] o H; [congruence|]. reflexivity. }
  set (A1 := FgIbke ssid mpk certI m0 (Some x) (Some (g_base G x)) None None None false 2).
  set (B1 := FgIbke ssid' mpk certR (m0 ++ m1) None None (Some idI) (Some (fg_mac0 al be, fg_mac1 al be)) (Some k) false 3).
  set (A2 := FgIbke ssid mpk certI ((m0 ++ m1) ++ m2) (Some x) (Some (g_base G x)) (Some idR) None (Some k) true 4).
  set (B2 := FgIbke ssid' mpk certR (((m0 ++ m1) ++ m2) ++ []) None None (Some idI) (Some (fg_mac0 al be, fg_mac1 al be)) (Some k) true 5).
  exists m0, m1, m2, A1, A2, B1, B2, k, (snd (s_random G r0)), (snd (s_random G r1)).
  split; [|split; [|split; [|split]]].
  - intro os. unfold fg_run. cbn [fg_step List.length Nat.eqb assert_]. unfold A1, m0, x.
    destruct (s_random G r0) as [x0 rx]. rewrite EA. reflexivity.
  - intro os. unfold fg_run. cbn [fg_step]. unfold m0 at 1. rewrite split_at_app by exact LI. cbn [obind].
    rewrite split_at_app by apply compress_length. cbn [obind]. rewrite !decompress_compress by exact L. cbn [obind fg_mpk].
    rewrite EM, decompress_compress by exact L.
    assert (SR : s_random G r1 = (y, snd (s_random G r1))) by (unfold y; destruct (s_random G r1); reflexivity).
    rewrite SR. cbn [obind]. rewrite EB. cbn [fg_cert_ fgc_xhat fgc_id fgc_X].
    change (g_mul G (g_base G x) y) with al.
    change (g_mul G (g_add G (g_add G (g_base G x) (g_base G a)) (g_mul G (g_base G msk) (fg_hash P G idI (compress G (g_base G a))))) (s_add G y xb)) with be.
    rewrite fg_derive_ok. cbn [obind fg_trans]. rewrite AB by exact N0. unfold B1. rewrite EM, EB. reflexivity.
  - intros r os. unfold fg_run, A1. cbn [fg_step]. unfold m1 at 1. rewrite split_at_app by exact LR. cbn [obind].
    rewrite split_at_app by apply compress_length. cbn [obind]. rewrite split_at_app by apply compress_length. cbn [obind].
    rewrite !decompress_compress by exact L. cbn [obind fg_mpk fg_eph_sk unwrap].
    rewrite EM, decompress_compress by exact L. cbn [obind]. rewrite EA. cbn [fg_cert_ fgc_xhat].
    change (g_mul G (g_base G y) x) with (fg_alpha x (g_base G y)).
    change (g_mul G (g_add G (g_add G (g_base G y) (g_base G b)) (g_mul G (g_base G msk) (fg_hash P G idR (compress G (g_base G b))))) (s_add G x xa))
      with (fg_beta (g_base G msk) x xa (g_base G y) idR (g_base G b)).
    unfold xa. rewrite fg_beta_sym, fg_alpha_sym by exact L. fold xb al be. rewrite fg_derive_ok. cbn [obind].
    rewrite beq_refl. cbn [negb fg_trans]. rewrite AB by exact N1. unfold A2. rewrite EM, EA. reflexivity.
  - intros r os. unfold fg_run, B1. cbn [fg_step fg_macs unwrap obind]. fold m2. rewrite beq_refl. cbn [negb fg_trans].
    rewrite AB by exact N2. reflexivity.
  - cbn [A1 A2 B1 B2 fg_done]. do 7 (split; [solve [reflexivity|assumption]|]).
    unfold fg_fin, A2, B1, B2. cbn [fg_key fg_trans fg_ssid fg_id unwrap obind]. rewrite !app_nil_r, <- !app_assoc. unfold fg_final. rewrite <- !app_assoc. repeat split.
Qed.

(* ---------------------------------------------------------------- C25 *)
Theorem fg_ibke_agreement : group_laws G -> honest_agreement (FgIbkeC P G) 3 (fun _ => True).
Proof.
  intros L rm mpk msk rm' idI idR certI certR uskI uskR ssid rI rR tape GM LI LR EI ER _.
  destruct (fg_honest_steps L rm mpk msk rm' idI idR certI certR ssid ssid (fst (tape 0%nat)) (fst (tape 1%nat)) uskI uskR GM LI LR EI ER) as
    [m0 [m1 [m2 [A1 [A2 [B1 [B2 [k [r0' [r1' [R0 [R1 [R2 [R3 [N0 [N1 [N2 [DA1 [DA2 [DB1 [DB2 [FA [_ FB]]]]]]]]]]]]]]]]]]]]]]].
  exists [m0; m1; m2], A2, B2, (fg_final ssid (m0 ++ m1 ++ m2) k). split; [|split; [reflexivity|]].
  - cbn [FgIbkeC ik_new]. unfold fg_new. cbn [fst first_step].
    unfold honest_run. apply (drive_I (ibke_machine (FgIbkeC P G)) _ _ _ _ _ A1).
    { reflexivity. } { cbn [m_run ibke_machine ik_run FgIbkeC]. rewrite R0. reflexivity. }
    apply (drive_R (ibke_machine (FgIbkeC P G)) _ _ _ _ _ B1).
    { reflexivity. } { cbn [m_run ibke_machine ik_run FgIbkeC opt_bytes]. change (shift tape 0%nat) with (tape 1%nat). rewrite R1. reflexivity. }
    apply (drive_I (ibke_machine (FgIbkeC P G)) _ _ _ _ _ A2).
    { exact DA1. } { cbn [m_run ibke_machine ik_run FgIbkeC opt_bytes]. rewrite R2. reflexivity. }
    apply (drive_R (ibke_machine (FgIbkeC P G)) _ _ _ _ _ B2).
    { exact DB1. } { cbn [m_run ibke_machine ik_run FgIbkeC opt_bytes]. rewrite R3. reflexivity. }
    apply drive_done_I. exact DA2.
  - cbn [FgIbkeC ik_done ik_fin]. rewrite FA, FB. repeat split; auto.
Qed.

(* ---------------------------------------------------------------- C28 *)
(** What a session has absorbed: the non-empty messages of its successful calls and their
    answers, in order. *)
Fixpoint log_transcript {M : machine} (l : log M) : bytes :=
  match l with
  | [] => []
  | (m, Ok o) :: r => m ++ opt_bytes o ++ log_transcript r
  | (_, Err _) :: r => log_transcript r
  end.
Lemma log_transcript_app : forall {M} (a b : log M), log_transcript (a ++ b) = log_transcript a ++ log_transcript b.
Proof.
  induction a as [|[m [o|e]] a IH]; intro b; [reflexivity| |].
  - cbn [app log_transcript]. rewrite IH, <- !app_assoc. reflexivity.
  - cbn [app log_transcript]. apply IH.
Qed.

(** The message that completes an initiator with ephemeral secret x and scalar xhat: it carries
    the id, X and ephemeral key from which the shared points are computed, and the MAC. *)
Definition fg_confirms_I (mpk : bytes) (x xhat : scalar G) (m id k : bytes) : Prop :=
  exists eph X mp, let al := fg_alpha x eph in let be := fg_beta mp x xhat eph id X in
    mpk = compress G mp /\ List.length id = 32%nat /\
    m = id ++ compress G X ++ compress G eph ++ fg_mac1 al be /\ k = fg_skey al be.
(** The two messages that complete a responder with ephemeral secret y. *)
Definition fg_confirms_R (mpk : bytes) (y xhat : scalar G) (m m' id k : bytes) : Prop :=
  exists eph X mp, let al := fg_alpha y eph in let be := fg_beta mp y xhat eph id X in
    mpk = compress G mp /\ List.length id = 32%nat /\
    m = id ++ compress G X ++ compress G eph /\ m' = fg_mac0 al be /\ k = fg_skey al be.

Definition fg_fixed (ssid mpk : bytes) cert (s : fgibke G) : Prop :=
  fg_ssid s = ssid /\ fg_mpk s = mpk /\ fg_cert_ s = cert.
Definition fg_hello (cert : fg_cert G) (x : scalar G) : bytes :=
  fgc_id cert ++ compress G (fgc_X cert) ++ compress G (g_base G x).
Definition fg_inv (rl : role) (ssid mpk : bytes) (cert : fg_cert G)
  (l : log (ibke_machine (FgIbkeC P G))) (s : fgibke G) : Prop :=
  fg_fixed ssid mpk cert s /\ fg_trans s = log_transcript l /\
  match rl with
  | Initiator =>
    (fg_step s = 0%nat /\ fg_done s = false) \/
    (exists x m0, In (m0, Ok (Some (fg_hello cert x))) l /\
       ((fg_step s = 2%nat /\ fg_done s = false /\ fg_eph_sk s = Some x) \/
        (fg_step s = 4%nat /\ fg_done s = true /\ exists m o id k, In (m, Ok o) l /\
           fg_confirms_I mpk x (fgc_xhat cert) m id k /\ fg_id s = Some id /\ fg_key s = Some k)))
  | Responder =>
    (fg_step s = 1%nat /\ fg_done s = false) \/
    (exists y m mac1 id k m', In (m, Ok (Some (fg_hello cert y ++ mac1))) l /\
       fg_confirms_R mpk y (fgc_xhat cert) m m' id k /\ fg_id s = Some id /\ fg_key s = Some k /\
       ((fg_step s = 3%nat /\ fg_done s = false /\ fg_macs s = Some (m', mac1)) \/
        (fg_step s = 5%nat /\ fg_done s = true /\ In (m', Ok None) l)))
  end.
Lemma fg_absorb_log : forall (l : log (ibke_machine (FgIbkeC P G))) m o,
  fg_absorb (log_transcript l) m o = log_transcript (l ++ [(m, Ok o)]).
Proof.
  intros l m o. rewrite log_transcript_app. cbn [log_transcript]. rewrite app_nil_r. unfold fg_absorb.
  destruct m as [|q m]; cbn [List.length Nat.ltb Nat.leb app]; [destruct o; reflexivity|].
  rewrite <- app_assoc. destruct o; reflexivity.
Qed.
Lemma fg_inv_step : group_laws G -> forall rl ssid mpk cert l s r os m s' o r',
  fg_inv rl ssid mpk cert l s -> fg_run P G s r os m = Ret (s', o, r') ->
  fg_inv rl ssid mpk cert (l ++ [(m, o)]) s' /\
  fg_step s' = (match o with Ok _ => fg_step s + 2 | Err _ => fg_step s end)%nat.
Proof.
  intros L rl ssid mpk cert l s r os m s' o r' [F [T H]] E. unfold fg_run in E. unfold fg_inv.
  pose proof F as [F1 [F2 F3]]. rewrite F1, F2, F3, T in E.
  assert (TE : forall e, log_transcript l = log_transcript (l ++ [(m, Err e)])).
  { intro e. rewrite log_transcript_app. cbn. rewrite app_nil_r. reflexivity. }
  destruct rl.
  - destruct H as [[ST D]|[x [m0 [IN [[ST [D SK]]|[ST [D REST]]]]]]]; rewrite ST in E.
    + obi E. injection E as <- <- <-. cbn [fg_step fg_done fg_trans]. split; [|lia].
      split; [unfold fg_fixed; cbn; auto|]. split; [apply fg_absorb_log|]. right. eexists _, m. split; [apply in_last|].
      left. cbn. rewrite D. auto.
    + rewrite SK in E. obi E. cbn [unwrap] in *.
      repeat match goal with X : split_at _ _ = Ret _ |- _ => apply split_at_inv in X; destruct X as [-> ?] end.
      repeat match goal with X : decompress _ ?b = Ret _ |- _ => apply (decompress_inv G _ _ L) in X; subst b end.
      match goal with X : Some _ = Some _ |- _ => idtac | _ => idtac end.
      repeat match goal with X : Ret _ = Ret _ |- _ => injection X as <- end.
      match type of E with context [fg_derive] => idtac | _ => idtac end.
      match goal with X : fg_derive _ _ ?u ?v = Ret _ |- _ => rewrite fg_derive_ok in X; set (al := u) in X; set (be := v) in X; injection X as <- <- <- end.
      match type of E with context [beq (fg_mac1 al be) ?b] => destruct (beq (fg_mac1 al be) b) eqn:Q end; cbn [negb] in E.
      * apply beq_spec in Q. subst. injection E as <- <- <-. cbn [fg_step fg_done fg_trans]. split; [|lia].
        split; [unfold fg_fixed; cbn; auto|]. split; [apply fg_absorb_log|]. right. exists x, m0. split; [apply in_snoc, IN|].
        right. split; [lia|]. split; [reflexivity|]. do 4 eexists. split; [apply in_last|]. cbn [fg_id fg_key]. split; [|split; reflexivity].
        eexists _, _, _. cbn zeta. split; [reflexivity|]. split; [eassumption|]. split; reflexivity.
      * injection E as <- <- <-. cbn [fg_step fg_done fg_trans]. split; [|lia].
        split; [unfold fg_fixed; cbn; auto|]. split; [apply TE|]. right. exists x, m0. split; [apply in_snoc, IN|]. left. cbn. auto.
    + discriminate E.
  - destruct H as [[ST D]|[y [m1 [mac1 [id [k [m' [IN [CF [HI [HK [[ST [D MC]]|[ST [D LST]]]]]]]]]]]]]]; rewrite ST in E.
    + obi E.
      repeat match goal with X : split_at _ _ = Ret _ |- _ => apply split_at_inv in X; destruct X as [-> ?] end.
      repeat match goal with X : decompress _ ?b = Ret _ |- _ => apply (decompress_inv G _ _ L) in X; subst b end.
      match goal with X : fg_derive _ _ ?u ?v = Ret _ |- _ => rewrite fg_derive_ok in X; set (al := u) in X; set (be := v) in X; injection X as <- <- <- end.
      injection E as <- <- <-. cbn [fg_step fg_done fg_trans]. split; [|lia].
      split; [unfold fg_fixed; cbn; auto|]. split; [apply fg_absorb_log|]. right.
      eexists _, _, (fg_mac1 al be), _, _, (fg_mac0 al be). unfold fg_hello. split; [rewrite <- !app_assoc; apply in_last|].
      cbn [fg_id fg_key fg_macs]. split; [|split; [reflexivity|split; [reflexivity|]]].
      * eexists _, _, _. cbn zeta. split; [reflexivity|]. split; [eassumption|]. split; [reflexivity|]. split; reflexivity.
      * left. split; [lia|]. split; [exact D|reflexivity].
    + rewrite MC in E. cbn [unwrap obind] in E. destruct (beq m' m) eqn:Q; cbn [negb] in E.
      * apply beq_spec in Q. subst m'. injection E as <- <- <-. cbn [fg_step fg_done fg_trans]. split; [|lia].
        split; [unfold fg_fixed; cbn; auto|]. split; [apply fg_absorb_log|]. right. exists y, m1, mac1, id, k, m. split; [apply in_snoc, IN|].
        split; [exact CF|]. split; [exact HI|]. split; [exact HK|]. right. split; [lia|]. split; [reflexivity|]. apply in_last.
      * injection E as <- <- <-. split; [|auto]. split; [exact F|]. split; [rewrite T; apply TE|]. right. exists y, m1, mac1, id, k, m'.
        split; [apply in_snoc, IN|]. split; [exact CF|]. split; [exact HI|]. split; [exact HK|]. left. auto.
    + discriminate E.
Qed.
Lemma fg_inv_hist : group_laws G -> forall r ssid mpk cert usk rl l s,
  hist (ibke_machine (FgIbkeC P G)) (fst (ik_new (FgIbkeC P G) r ssid mpk cert usk rl)) l s ->
  fg_inv rl ssid mpk cert l s.
Proof.
  intros L r ssid mpk cert usk rl l s H. induction H as [|l s rr m s' o H IH E].
  - cbn [FgIbkeC ik_new]. unfold fg_new. cbn [fst]. unfold fg_inv, fg_fixed.
    split; [cbn; auto|]. split; [reflexivity|]. destruct rl; left; split; reflexivity.
  - cbn [m_run ibke_machine FgIbkeC ik_run] in E. obi E. injection E as <- <-.
    eapply fg_inv_step; eassumption.
Qed.
(** A done initiator accepted a message carrying the id it outputs and the MAC of the shared
    points computed from that id, the main key and the ephemeral key it sent; its key is the
    KDF of everything it received and sent successfully and the key of the same points. *)
Theorem fg_initiator_done_confirmed : group_laws G -> forall r ssid mpk cert usk l s,
  hist (ibke_machine (FgIbkeC P G)) (fst (ik_new (FgIbkeC P G) r ssid mpk cert usk Initiator)) l s ->
  ik_done (FgIbkeC P G) s = true ->
  exists x m0 m o id k, In (m0, Ok (Some (fg_hello cert x))) l /\ In (m, Ok o) l /\
    ik_fin (FgIbkeC P G) s = Ret (id, fg_final ssid (log_transcript l) k) /\
    fg_confirms_I mpk x (fgc_xhat cert) m id k.
Proof.
  intros L r ssid mpk cert usk l s H D. apply (fg_inv_hist L) in H. destruct H as [[F1 _] [T H]]. cbn [FgIbkeC ik_done IST] in *.
  destruct H as [[_ D0]|[x [m0 [IN [[_ [D0 _]]|[_ [_ [m [o [id [k [IN' [CF [HI HK]]]]]]]]]]]]]]; [congruence|congruence|].
  exists x, m0, m, o, id, k. repeat split; auto. cbn [FgIbkeC ik_fin]. unfold fg_fin. rewrite HI, HK, T, F1. reflexivity.
Qed.
Theorem fg_responder_done_confirmed : group_laws G -> forall r ssid mpk cert usk l s,
  hist (ibke_machine (FgIbkeC P G)) (fst (ik_new (FgIbkeC P G) r ssid mpk cert usk Responder)) l s ->
  ik_done (FgIbkeC P G) s = true ->
  exists y m mac1 m' id k, In (m, Ok (Some (fg_hello cert y ++ mac1))) l /\ In (m', Ok None) l /\
    ik_fin (FgIbkeC P G) s = Ret (id, fg_final ssid (log_transcript l) k) /\
    fg_confirms_R mpk y (fgc_xhat cert) m m' id k.
Proof.
  intros L r ssid mpk cert usk l s H D. apply (fg_inv_hist L) in H. destruct H as [[F1 _] [T H]]. cbn [FgIbkeC ik_done IST] in *.
  destruct H as [[_ D0]|[y [m [mac1 [id [k [m' [IN [CF [HI [HK [[_ [D0 _]]|[_ [_ LST]]]]]]]]]]]]]]; [congruence|congruence|].
  exists y, m, mac1, m', id, k. repeat split; auto. cbn [FgIbkeC ik_fin]. unfold fg_fin. rewrite HI, HK, T, F1. reflexivity.
Qed.

(* ---------------------------------------------------------------- C29 *)
Lemma fg_enrolled_exists : forall msk id, exists cert usk, enrolled (FgIbkeC P G) msk id cert usk.
Proof.
  intros msk id. destruct (gen_user (FgIbkeC P G) (fun _ => 0)) as [[upk usk] r] eqn:U.
  destruct (ik_extract (FgIbkeC P G) r msk id upk) as [cert r'] eqn:X. exists cert, usk, (fun _ => 0), upk, r, r, r'. auto.
Qed.
Theorem fg_finalize_refuted : group_laws G -> ~ ibke_fin_iff_done (FgIbkeC P G).
Proof.
  intros L H.
  destruct (gen_main (FgIbkeC P G) (fun _ => 0)) as [[mpk msk] rm'] eqn:GM.
  set (id := repeat 0 32). assert (LI : List.length id = 32%nat) by reflexivity.
  destruct (fg_enrolled_exists msk id) as [cert [usk EN]].
  destruct (fg_honest_steps L _ mpk msk rm' id id cert cert [] [] (fun _ => 0) (fun _ => 0) usk usk GM LI LI EN EN) as
    [m0 [m1 [m2 [A1 [A2 [B1 [B2 [k [r0' [r1' [R0 [R1 [R2 [R3 [N0 [N1 [N2 [DA1 [DA2 [DB1 [DB2 [FA [FB1 FB]]]]]]]]]]]]]]]]]]]]]]].
  set (s0 := fst (ik_new (FgIbkeC P G) (fun _ => 0) [] mpk cert usk Responder)).
  specialize (H s0 B1). destruct H as [_ H].
  - exists (fun _ => 0), mpk, msk, rm', id, cert, usk, (fun _ => 0), [], Responder. auto.
  - eapply (reach_run (ibke_machine (FgIbkeC P G)) s0 s0 (fun _ => 0, fun _ => 0) m0 B1); [constructor|].
    cbn [m_run ibke_machine FgIbkeC ik_run fst snd]. unfold s0. cbn [FgIbkeC ik_new]. unfold fg_new. cbn [fst first_step].
    rewrite R1. reflexivity.
  - cbn [FgIbkeC ik_done ik_fin] in H. rewrite DB1 in H. discriminate H. exists id. eexists. exact FB1.
Qed.
(** The id it hands out is whatever the message says: for every id, X and ephemeral key an
    outsider picks, a responder that received them finalizes to that id. *)
Theorem fg_finalize_unauthenticated : group_laws G -> forall r ssid mp cert usk rr os id X eph,
  List.length id = 32%nat ->
  exists s o r' k, ik_run (FgIbkeC P G) (fst (ik_new (FgIbkeC P G) r ssid (compress G mp) cert usk Responder)) rr os
      (id ++ compress G X ++ compress G eph) = Ret (s, Ok (Some o), r') /\
    ik_done (FgIbkeC P G) s = false /\ ik_fin (FgIbkeC P G) s = Ret (id, k).
Proof.
  intros L r ssid mp cert usk rr os id X eph LI.
  cbn [FgIbkeC ik_new ik_run ik_done ik_fin]. unfold fg_new. cbn [fst]. unfold fg_run. cbn [first_step fg_step].
  rewrite split_at_app by exact LI. cbn [obind]. rewrite split_at_app by apply compress_length. cbn [obind].
  rewrite !decompress_compress by exact L. cbn [obind fg_mpk]. rewrite decompress_compress by exact L. 
  destruct (s_random G rr) as [y ry]. cbn [obind]. rewrite fg_derive_ok. cbn [obind].
  do 4 eexists. split; [reflexivity|]. split; [reflexivity|]. reflexivity.
Qed.

(* ---------------------------------------------------------------- C30, C31 *)
(** run_sim is unimplemented: refuted in every state. *)
Theorem fg_sim_always_panics : forall s, ik_sim (FgIbkeC P G) s = Panic.
Proof. reflexivity. Qed.
Theorem fg_sim_size_refuted : ~ sim_predicts_size (FgIbkeC P G).
Proof.
  intro H. destruct (gen_main (FgIbkeC P G) (fun _ => 0)) as [[mpk msk] rm'] eqn:GM.
  set (id := repeat 0 32). assert (LI : List.length id = 32%nat) by reflexivity.
  destruct (fg_enrolled_exists msk id) as [cert [usk EN]].
  set (s0 := fst (ik_new (FgIbkeC P G) (fun _ => 0) [] mpk cert usk Initiator)).
  assert (R : exists s' o r', ik_run (FgIbkeC P G) s0 (fun _ => 0) (fun _ => 0) [] = Ret (s', Ok o, r')).
  { cbn [FgIbkeC ik_run]. unfold s0. cbn [FgIbkeC ik_new]. unfold fg_new. cbn [fst first_step]. unfold fg_run. cbn [fg_step List.length Nat.eqb assert_].
    destruct (s_random G (fun _ => 0)) as [x rx]. do 3 eexists. reflexivity. }
  destruct R as [s' [o [r' R]]].
  destruct (H s0 s0 ltac:(exists (fun _ => 0), mpk, msk, rm', id, cert, usk, (fun _ => 0), [], Initiator; auto) (mixed_init _ _)
    _ _ _ _ _ _ R) as [s'' E]. discriminate E.
Qed.

(* ---------------------------------------------------------------- C37 *)
Theorem fg_steps : group_laws G -> forall r ssid mpk cert usk rl,
  disciplined (ibke_machine (FgIbkeC P G)) fg_step rl (fst (ik_new (FgIbkeC P G) r ssid mpk cert usk rl)).
Proof.
  intros L r ssid mpk cert usk rl.
  apply (disciplined_by (ibke_machine (FgIbkeC P G)) fg_step rl _ (fun s => exists l, fg_inv rl ssid mpk cert l s)).
  - reflexivity.
  - exists []. apply (fg_inv_hist L r ssid mpk cert usk). constructor.
  - intros s rr m s' o [l IV] E. cbn [m_run ibke_machine FgIbkeC ik_run] in E. obi E. injection E as <- ->.
    destruct (fg_inv_step L _ _ _ _ _ _ _ _ _ _ _ _ IV E0) as [A B]. split; [eexists; exact A|exact B].
  - intros s rr m s' o [l IV] E. cbn [m_run ibke_machine FgIbkeC ik_run] in E. obi E. injection E as <- ->.
    destruct (fg_inv_step L _ _ _ _ _ _ _ _ _ _ _ _ IV E0) as [A B]. split; [eexists; exact A|exact B].
  - intros s rr m [l [_ [_ IV]]] D. cbn [m_run m_done m_st ibke_machine FgIbkeC ik_run ik_done IST] in *. unfold fg_run.
    destruct rl.
    + destruct IV as [[_ D0]|[x [m0 [_ [[_ [D0 _]]|[-> _]]]]]]; [congruence|congruence|reflexivity].
    + destruct IV as [[_ D0]|[y [m1 [mac1 [id [k [m' [_ [_ [_ [_ [[_ [D0 _]]|[-> _]]]]]]]]]]]]]; [congruence|congruence|reflexivity].
Qed.
End F.
