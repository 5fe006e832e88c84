(** * PropsConv2: the shipped protocols under C69. *)
From Coq Require Import ZArith List Lia Bool String.
From Verif Require SaberWitness.
From Verif Require Import Base SaberPoly SaberKem SaberSpec Crypto Symmetric PropsSym Driver Pakes PropsPake Ibkes IbkeSpec
  PropsSigDh PropsHmqv PropsFg PropsSigma SigmaDil IbkeToy Eue PropsEue Latke LatkeSim LatkeHist PropsLatke PropsLatke2
  PropsPanic PropsKeys PropsMatch PropsMatch2 PropsBind PropsConv.
Import ListNotations.
Open Scope Z_scope.
Local Opaque bytes_of draw expand extract hmac compress str auth_encrypt auth_decrypt.
Local Opaque keygen_ind_cpa encapsulate_ind_cpa decapsulate_ind_cpa ideal_cipher_encrypt ideal_cipher_decrypt ciphertext_from_bytes
  indcpa_pk_from_bytes INDCPA_PUBLICKEYBYTES BYTES_CCA_DEC pk_to_bytes.

(* ------------------------------------------------------------------ *)
(** ** The PAKEs *)
Lemma ideal_cipher_length : forall P d ssid pw x y, (32 <= List.length x)%nat -> ideal_cipher_encrypt P d ssid pw x = Ret y -> List.length y = List.length x.
Proof.
  intros P d ssid pw x y L E. destruct (ideal_roundtrip P d ssid pw x L) as [z [E1 [_ E2]]]. congruence.
Qed.
Lemma light_ct_len : forall m ct, ciphertext_from_bytes LightSaber m = Ret (Ok ct) -> ct = m /\ List.length m = 736%nat.
Proof.
  Local Transparent ciphertext_from_bytes.
  intros m ct H. split; [apply ct_from_inv in H; exact H|]. unfold ciphertext_from_bytes, newtype_from_bytes in H. rewrite light_ct_bytes in H.
  destruct (List.length m =? 736)%nat eqn:E; [apply Nat.eqb_eq; exact E|discriminate H].
  Local Opaque ciphertext_from_bytes.
Qed.
Definition sized (rl : role) (l : list (bytes * option bytes)) (ns : list nat) : Prop := exists ms, l = side rl ms /\ map (@List.length Z) ms = ns.
Definition ck_shape {M : machine} (rl : role) (l : log M) (s : cake) : Prop :=
  match rl with
  | Initiator => (ck_step s = 0%nat /\ ck_done s = false /\ PropsMatch.oks l = []) \/
      (exists a, List.length a = 672%nat /\
         ((ck_step s = 2%nat /\ ck_done s = false /\ PropsMatch.oks l = [([], Some a)]) \/
          (ck_step s = 4%nat /\ ck_done s = true /\ sized Initiator (PropsMatch.oks l) [672%nat; 736%nat])))
  | Responder => (ck_step s = 1%nat /\ ck_done s = false /\ PropsMatch.oks l = []) \/ (ck_step s = 3%nat /\ ck_done s = true /\ sized Responder (PropsMatch.oks l) [672%nat; 736%nat])
  end.
Lemma cake_rigid : forall P h, rigid_pake (CakePake P h) [672%nat; 736%nat].
Proof.
  intros P h r ssid pw rl s0 r' l s N H D.
  assert (X : ck_shape rl l s).
  { clear D. cbn [CakePake pk_new] in N. unfold cake_new in N. injection N as <- _.
    induction H as [|l s rr m s' o H IH E]; [destruct rl; left; auto|].
    cbn [pake_machine m_run CakePake pk_run] in E. unfold cake_run in E. destruct rl; cbn [ck_shape] in *.
    - destruct IH as [[ST [DN OK]]|[a [LA [[ST [DN OK]]|[ST _]]]]]; rewrite ST in E; [| |discriminate E].
      + obi E. match goal with X : copy_exact _ _ = Ret _ |- _ => apply copy_exact_inv in X; destruct X as [-> LX] end. rewrite light_pk_bytes in LX.
        match goal with X : ideal_cipher_encrypt _ _ _ _ _ = Ret _ |- _ => apply ideal_cipher_length in X; [rewrite LX in X|rewrite LX; apply Nat.leb_le; reflexivity] end.
        injection E as <- <-. destruct m; [|discriminate]. right. eexists. split; [eassumption|]. left. cbn [ck_step ck_done]. rewrite PropsMatch.oks_ok, OK. auto.
      + obi E. match goal with X : unwrap_ok ?c = Ret _, Y : ciphertext_from_bytes _ _ = Ret ?c |- _ => destruct c; [|discriminate X]; apply light_ct_len in Y; destruct Y as [-> LY] end.
        injection E as <- <-. right. exists a. split; [exact LA|]. right. cbn [ck_step ck_done]. split; [reflexivity|]. split; [reflexivity|].
        rewrite PropsMatch.oks_ok, OK. exists [a; m]. split; [reflexivity|]. cbn [map]. rewrite LA, LY. reflexivity.
    - destruct IH as [[ST [DN OK]]|[ST _]]; rewrite ST in E; [|discriminate E].
      obi E. match goal with X : copy_exact _ _ = Ret _ |- _ => apply copy_exact_inv in X; destruct X as [-> LX] end. rewrite light_pk_bytes in LX.
      match goal with X : encapsulate_ind_cpa _ _ _ _ = _ |- _ => apply encaps_len_light in X; rename X into LC end.
      match goal with X : ideal_cipher_encrypt _ _ _ _ _ = Ret _ |- _ => apply ideal_cipher_length in X; [rewrite LC in X; rename X into LE|rewrite LC; apply Nat.leb_le; reflexivity] end.
      injection E as <- <-. right. cbn [ck_step ck_done]. split; [reflexivity|]. split; [reflexivity|].
      rewrite PropsMatch.oks_ok, OK. eexists [m; _]. split; [reflexivity|]. cbn [map]. rewrite LX, LE. reflexivity. }
  cbn [CakePake pk_done] in D. destruct rl; cbn [ck_shape] in X.
  - destruct X as [[_ [D0 _]]|[a [_ [[_ [D0 _]]|[_ [_ X]]]]]]; [congruence|congruence|exact X].
  - destruct X as [[_ [D0 _]]|[_ [_ X]]]; [congruence|exact X].
Qed.

Definition cp_shape {M : machine} {C} (rl : role) (l : log M) (s : cpace C) : Prop :=
  match rl with
  | Initiator => (cp_step s = 0%nat /\ cp_done s = false /\ PropsMatch.oks l = []) \/
      (exists a, List.length a = 48%nat /\
         ((cp_step s = 2%nat /\ cp_done s = false /\ PropsMatch.oks l = [([], Some a)]) \/
          (cp_step s = 4%nat /\ cp_done s = true /\ sized Initiator (PropsMatch.oks l) [48%nat; 32%nat])))
  | Responder => (cp_step s = 1%nat /\ cp_done s = false /\ PropsMatch.oks l = []) \/ (cp_step s = 3%nat /\ cp_done s = true /\ sized Responder (PropsMatch.oks l) [48%nat; 32%nat])
  end.
Lemma cpace_rigid : forall C, rigid_pake (CpacePake C) [48%nat; 32%nat].
Proof.
  intros C r ssid pw rl s0 r' l s N H D.
  assert (X : cp_shape rl l s).
  { clear D. cbn [CpacePake pk_new] in N. unfold cpace_new in N. injection N as <- _.
    induction H as [|l s rr m s' o H IH E]; [destruct rl; left; auto|].
    cbn [pake_machine m_run CpacePake pk_run] in E. unfold cpace_run in E. destruct rl; cbn [cp_shape] in *.
    - destruct IH as [[ST [DN OK]]|[a [LA [[ST [DN OK]]|[ST _]]]]]; rewrite ST in E; [| |discriminate E].
      + obi E. injection E as <- <-. destruct m; [|discriminate]. right. match goal with |- context [cpace_packet1 C ?u] => exists (cpace_packet1 C u) end. split; [apply bytes_of_length|]. left. cbn [cp_step cp_done]. rewrite PropsMatch.oks_ok, OK. auto.
      + obi E. match goal with X : copy_exact _ _ = Ret _ |- _ => apply copy_exact_inv in X; destruct X as [-> LX] end.
        injection E as <- <-. right. exists a. split; [exact LA|]. right. cbn [cp_step cp_done]. split; [reflexivity|]. split; [reflexivity|].
        rewrite PropsMatch.oks_ok, OK. exists [a; m]. split; [reflexivity|]. cbn [map]. rewrite LA, LX. reflexivity.
    - destruct IH as [[ST [DN OK]]|[ST _]]; rewrite ST in E; [|discriminate E].
      obi E. match goal with X : copy_exact _ _ = Ret _ |- _ => apply copy_exact_inv in X; destruct X as [-> LX] end.
      injection E as <- <-. right. cbn [cp_step cp_done]. split; [reflexivity|]. split; [reflexivity|].
      rewrite PropsMatch.oks_ok, OK. eexists [m; _]. split; [reflexivity|]. cbn [map]. rewrite LX, bytes_of_length. reflexivity. }
  cbn [CpacePake pk_done] in D. destruct rl; cbn [cp_shape] in X.
  - destruct X as [[_ [D0 _]]|[a [_ [[_ [D0 _]]|[_ [_ X]]]]]]; [congruence|congruence|exact X].
  - destruct X as [[_ [D0 _]]|[_ [_ X]]]; [congruence|exact X].
Qed.
(** The spake2 crate's messages have one size and it accepts no other (33 bytes: a side byte
    and a compressed point). *)
Definition spake_sized (S : spake_crate) (n : nat) : Prop :=
  (forall pw id r, List.length (snd (fst (sp_start S pw id r))) = n) /\ (forall st m k, sp_finish S st m = Some k -> List.length m = n).
Definition kc_shape {M : machine} {S} (n : nat) (rl : role) (l : log M) (s : kcspake S) : Prop :=
  List.length (kc_first s) = n /\ (forall a b, kc_macs s = Some (a, b) -> List.length a = 32%nat) /\
  match rl with
  | Initiator => (kc_step s = 0%nat /\ kc_done s = false /\ PropsMatch.oks l = []) \/
      (exists a, List.length a = n /\
         ((kc_step s = 2%nat /\ kc_done s = false /\ PropsMatch.oks l = [([], Some a)]) \/
          (kc_step s = 4%nat /\ kc_done s = true /\ sized Initiator (PropsMatch.oks l) [n; (n + 32)%nat; 32%nat])))
  | Responder => (kc_step s = 1%nat /\ kc_done s = false /\ PropsMatch.oks l = []) \/
      (exists a b, List.length a = n /\ List.length b = (n + 32)%nat /\
         ((kc_step s = 3%nat /\ kc_done s = false /\ PropsMatch.oks l = [(a, Some b)]) \/
          (kc_step s = 5%nat /\ kc_done s = true /\ sized Responder (PropsMatch.oks l) [n; (n + 32)%nat; 32%nat])))
  end.
Lemma kc_derive_lengths : forall P pw mi mr k a b c, kc_derive P pw mi mr k = Ret (a, b, c) -> List.length a = 32%nat /\ List.length b = 32%nat /\ List.length c = 32%nat.
Proof.
  intros P pw mi mr k a b c H. unfold kc_derive in H. obi H.
  repeat match goal with X : split_at _ _ = Ret _ |- _ => apply split_at_inv in X; destruct X as [? ?] end.
  injection H as <- <- <-. match goal with X : expand _ _ _ 96 = _ |- _ => apply (f_equal (@List.length Z)) in X; rewrite expand_length, app_length in X end.
  subst. rewrite app_length in *. repeat split; lia.
Qed.
Lemma kc_spake2_rigid : forall P S n, spake_sized S n -> rigid_pake (KcSpakePake P S) [n; (n + 32)%nat; 32%nat].
Proof.
  intros P S n [ZM ZF] r ssid pw rl s0 r' l s N H D.
  assert (X : kc_shape n rl l s).
  { clear D. cbn [KcSpakePake pk_new] in N. unfold kc_new in N. specialize (ZM pw ssid r). destruct (sp_start S pw ssid r) as [[st msg] r2]. cbn [fst snd] in ZM. injection N as <- _.
    induction H as [|l s rr m s' o H IH E]; [split; [exact ZM|]; split; [discriminate|]; destruct rl; left; auto|].
    destruct IH as [LF [LM IH]].
    cbn [pake_machine m_run KcSpakePake pk_run] in E. unfold kc_run in E. destruct rl.
    - destruct IH as [[ST [DN OK]]|[a [LA [[ST [DN OK]]|[ST _]]]]]; rewrite ST in E; [| |discriminate E].
      + obi E. injection E as <- <-. destruct m; [|discriminate]. split; [exact LF|]. split; [exact LM|]. right. exists (kc_first s). split; [exact LF|]. left. cbn [kc_step kc_done]. rewrite PropsMatch.oks_ok, OK. auto.
      + obi E. match goal with X : split_last _ _ = Ret _ |- _ => apply split_last_inv in X; destruct X as [-> LX] end.
        match goal with X : unwrap (sp_finish _ _ _) = Ret _ |- _ => destruct (sp_finish _ _ _) eqn:FN in X; [|discriminate X]; apply ZF in FN end.
        match goal with X : kc_derive _ _ _ _ _ = Ret _ |- _ => apply kc_derive_lengths in X; destruct X as [L0 [L1 _]] end.
        match type of E with (if ?u then _ else _) = _ => destruct u eqn:Q end; injection E as <- <-.
        * split; [exact LF|]. split; [let E0 := fresh in intros ? ? E0; cbn [kc_macs] in E0; injection E0 as <- <-; exact L0|]. right. exists a. split; [exact LA|]. right. cbn [kc_step kc_done]. split; [reflexivity|]. split; [reflexivity|].
          rewrite PropsMatch.oks_ok, OK. eexists [a; _; _]. split; [reflexivity|]. cbn [map]. rewrite LA, L0, app_length, FN, LX. reflexivity.
        * split; [exact LF|]. split; [let E0 := fresh in intros ? ? E0; cbn [kc_macs] in E0; injection E0 as <- <-; exact L0|]. right. exists a. split; [exact LA|]. left. cbn [kc_step kc_done]. rewrite PropsMatch.oks_err. auto.
    - destruct IH as [[ST [DN OK]]|[a [b [LA [LB [[ST [DN OK]]|[ST _]]]]]]]; rewrite ST in E; [| |discriminate E].
      + obi E. match goal with X : unwrap (sp_finish _ _ _) = Ret _ |- _ => destruct (sp_finish _ _ _) eqn:FN in X; [|discriminate X]; apply ZF in FN end.
        match goal with X : kc_derive _ _ _ _ _ = Ret _ |- _ => apply kc_derive_lengths in X; destruct X as [L0 [L1 _]] end.
        injection E as <- <-. split; [exact LF|]. split; [let E0 := fresh in intros ? ? E0; cbn [kc_macs] in E0; injection E0 as <- <-; exact L0|]. right. match goal with |- context [Some (kc_first s ++ ?u)] => exists m, (kc_first s ++ u) end. split; [exact FN|]. split; [|left; cbn [kc_step kc_done]; rewrite PropsMatch.oks_ok, OK; auto].
        rewrite app_length. lia.
      + obi E. match goal with X : unwrap (kc_macs s) = Ret (?u, ?v) |- _ => destruct (kc_macs s) as [[u0 v0]|] eqn:MC in X; [|discriminate X]; cbn [unwrap] in X; injection X as <- <- end.
        specialize (LM _ _ MC). match type of E with (if ?u then _ else _) = _ => destruct u eqn:Q end; injection E as <- <-.
        * apply beq_spec in Q. subst m. split; [exact LF|]. split; [let E0 := fresh in intros ? ? E0; cbn [kc_macs] in E0; congruence|]. right. exists a, b. split; [exact LA|]. split; [exact LB|]. right. cbn [kc_step kc_done]. split; [reflexivity|]. split; [reflexivity|].
          rewrite PropsMatch.oks_ok, OK. eexists [a; b; _]. split; [reflexivity|]. cbn [map]. rewrite LA, LB, LM. reflexivity.
        * split; [exact LF|]. split; [let E0 := fresh in intros ? ? E0; congruence|]. right. exists a, b. split; [exact LA|]. split; [exact LB|]. left. rewrite PropsMatch.oks_err. auto. }
  cbn [KcSpakePake pk_done] in D. destruct X as [_ [_ X]]. destruct rl.
  - destruct X as [[_ [D0 _]]|[a [_ [[_ [D0 _]]|[_ [_ X]]]]]]; [congruence|congruence|exact X].
  - destruct X as [[_ [D0 _]]|[a [b [_ [_ [[_ [D0 _]]|[_ [_ X]]]]]]]]; [congruence|congruence|exact X].
Qed.
Lemma toy_spake_sized : spake_sized toy_spake 32.
Proof.
  split.
  - intros pw id r. unfold toy_spake. cbn [sp_start]. destruct (draw 32 r) as [x r1] eqn:E. cbn [fst snd]. change x with (fst (x, r1)). rewrite <- E. apply draw_length.
  - intros st m k H. unfold toy_spake in H. cbn [sp_finish] in H. destruct (List.length m =? 32)%nat eqn:E; [apply Nat.eqb_eq; exact E|discriminate H].
Qed.

(* ------------------------------------------------------------------ *)
(** ** The IBKEs *)
Lemma sig_dh_rigid : forall P, rigid_ibke (IdSigDh P) (fun _ c _ => sd_cert_wf P c) [256%nat; 256%nat].
Proof.
  intros P r ssid mpk cert usk rl l s W H D. cbn [IdSigDh ik_done] in D.
  assert (LM : forall t e, List.length (sd_msg P ssid cert usk t e) = 256%nat).
  { destruct W as [W1 [W2 [W3 [W4 _]]]]. intros t e. unfold sd_msg. rewrite !app_length, sign_length, x_pub_length, W1, W2, W3, W4. reflexivity. }
  destruct rl.
  - apply sdx_hist_I in H. destruct H as [_ [[_ [D0 _]]|[e [_ [_ [[_ [D0 _]]|[_ [_ [eph [sg [id [pk [dh [csig [OK [L1 [L2 [L3 [L4 [L5 [L6 [V1 [V2 [ID KY]]]]]]]]]]]]]]]]]]]]]]]]; try congruence.
    split.
    + eexists [_; _]. split; [exact OK|]. cbn [map]. rewrite LM, !app_length, L1, L2, L3, L4, L5, L6. reflexivity.
    + intros i k F. cbn [IdSigDh ik_fin] in F. rewrite ID, KY in F. cbn [unwrap obind] in F. injection F as _ <-. apply expand_length.
  - apply sdx_hist_R in H. destruct H as [_ [[_ [D0 _]]|[_ [_ [e [eph [sg [id [pk [dh [csig [OK [L1 [L2 [L3 [L4 [L5 [L6 [V1 [V2 [ID KY]]]]]]]]]]]]]]]]]]]]]; try congruence.
    split.
    + eexists [_; _]. split; [exact OK|]. cbn [map]. rewrite LM, !app_length, L1, L2, L3, L4, L5, L6. reflexivity.
    + intros i k F. cbn [IdSigDh ik_fin] in F. rewrite ID, KY in F. cbn [unwrap obind] in F. injection F as _ <-. apply expand_length.
Qed.
Lemma hmqv_rigid : forall P G, group_laws G -> rigid_ibke (IdHmqvC P G) (fun _ c _ => hm_cert_wf G c) [160%nat; 192%nat; 32%nat].
Proof.
  intros P G GL r ssid mpk cert usk rl l s W H D. cbn [IdHmqvC ik_done] in D.
  assert (LC : List.length (hm_cert_to_bytes G cert) = 128%nat) by (apply (hm_cert_roundtrip G GL); exact W).
  assert (LX : forall b id upk, hm_certified P G mpk b id upk -> List.length b = 128%nat).
  { intros b id upk [csig [-> [L1 [L2 _]]]]. rewrite !app_length, compress_length, L1, L2. reflexivity. }
  destruct rl.
  - apply (hmx_hist_I P G GL) in H. destruct H as [_ [[_ [D0 _]]|[x [[_ [D0 _]]|[_ [_ [eph [upk [id [certb [OK [CT [ID KY]]]]]]]]]]]]]; try congruence. apply LX in CT.
    split.
    + eexists [_; _; _]. split; [exact OK|]. cbn [map]. unfold hm_mac0, hm_mac1. rewrite !app_length, !compress_length, !expand_length, LC, CT. reflexivity.
    + intros i k F. cbn [IdHmqvC ik_fin] in F. rewrite ID, KY in F. cbn [unwrap obind] in F. injection F as _ <-. apply expand_length.
  - apply (hmx_hist_R P G GL) in H. destruct H as [_ [[_ [D0 _]]|[y [eph [upk [id [certb [rest [OK [CT [ID [KY [_ [[_ [D0 _]]|[_ [_ ->]]]]]]]]]]]]]]]]; try congruence. apply LX in CT.
    split.
    + eexists [_; _; _]. split; [exact OK|]. cbn [map]. unfold hm_mac0, hm_mac1. rewrite !app_length, !compress_length, !expand_length, LC, CT. reflexivity.
    + intros i k F. cbn [IdHmqvC ik_fin] in F. rewrite ID, KY in F. cbn [unwrap obind] in F. injection F as _ <-. apply expand_length.
Qed.
Lemma fg_rigid : forall P G, group_laws G -> rigid_ibke (FgIbkeC P G) (fun _ c _ => List.length (fgc_id c) = 32%nat) [96%nat; 128%nat; 32%nat].
Proof.
  intros P G GL r ssid mpk cert usk rl l s W H D. cbn [FgIbkeC ik_done] in D.
  assert (LH : forall x, List.length (fg_hello G cert x) = 96%nat) by (intro x; unfold fg_hello; rewrite !app_length, !compress_length, W; reflexivity).
  assert (LA : forall a b, List.length (fg_mac0 P G a b) = 32%nat) by (intros; apply fg_mac_lengths).
  assert (LB : forall a b, List.length (fg_mac1 P G a b) = 32%nat) by (intros; apply fg_mac_lengths).
  assert (LF : forall i k, ik_fin (FgIbkeC P G) s = Ret (i, k) -> List.length k = 32%nat).
  { intros i k F. cbn [FgIbkeC ik_fin] in F. unfold fg_fin in F. obi F. injection F as _ <-. apply expand_length. }
  split; [|exact LF]. destruct rl.
  - apply (fgx_hist_I P G GL) in H. destruct H as [_ [_ [[_ [D0 _]]|[x [[_ [D0 _]]|[_ [_ [id [X [eph [mp [_ [LI [_ [_ OK]]]]]]]]]]]]]]]; try congruence. cbn zeta in OK.
    eexists [_; _; _]. split; [exact OK|]. cbn [map]. rewrite LA, LH, !app_length, !compress_length, LB, LI. reflexivity.
  - apply (fgx_hist_R P G GL) in H. destruct H as [_ [_ [[_ [D0 _]]|[y [id [X [eph [mp [rest [_ [LI [_ [_ [_ [OK [[_ [D0 _]]|[_ [_ ->]]]]]]]]]]]]]]]]]]; try congruence. cbn zeta in OK.
    eexists [_; _; _]. split; [exact OK|]. cbn [map]. rewrite LA, !app_length, LH, !compress_length, LB, LI. reflexivity.
Qed.
(** The size of the two encrypted messages of ID-SIGMA-R: nonce and tag (44), signature, MAC,
    certificate. *)
Definition sm_flight_len (ty : scheme) : nat := (sig_len ty + 32 + (32 + pk_len ty + sig_len ty) + 44)%nat.
Definition sm_ok (P : prims) (ty : scheme) (mpk : tagged) (c : sm_cert) (usk : tagged) : Prop := fst mpk = ty /\ sm_cert_wf P ty c /\ fst usk = ty.
Lemma sigma_rigid : forall ty P h, rigid_ibke (IdSigmaR ty P h) (sm_ok P ty) [704%nat; 768%nat; sm_flight_len ty; sm_flight_len ty].
Proof.
  intros ty P h r ssid mpk cert usk rl l s [TM [W TU]] H D. cbn [IdSigmaR ik_done] in D.
  change (MPK (IdSigmaR ty P h)) with tagged in mpk. change (CERT (IdSigmaR ty P h)) with sm_cert in cert. change (USK (IdSigmaR ty P h)) with tagged in usk. change (IST (IdSigmaR ty P h)) with sigma in s. subst ty.
  destruct (sm_cert_roundtrip _ _ _ W) as [_ LC].
  assert (LF : forall sg mac, List.length sg = sig_len (fst mpk) -> List.length mac = 32%nat -> (List.length (sg ++ mac ++ sm_cert_to_bytes cert) + 44)%nat = sm_flight_len (fst mpk)).
  { intros sg mac L1 L2. rewrite !app_length, L1, L2, LC. unfold sm_flight_len. destruct (fst mpk); reflexivity. }
  assert (L3 : forall r1 ss nB ct kpk, List.length (sm_flight3 P ssid cert usk r1 ss nB ct kpk) = sm_flight_len (fst mpk)).
  { intros. unfold sm_flight3. rewrite auth_encrypt_length. apply LF; [unfold t_sign; cbn [snd]; rewrite sign_length, TU; reflexivity|apply hmac_length]. }
  assert (L4 : forall r1 ss nA ct kpk, List.length (sm_flight4 P ssid cert usk r1 ss nA ct kpk) = sm_flight_len (fst mpk)).
  { intros. unfold sm_flight4. rewrite auth_encrypt_length. apply LF; [unfold t_sign; cbn [snd]; rewrite sign_length, TU; reflexivity|apply hmac_length]. }
  assert (LA : forall ek mk t tag m id, sm_authentic P mpk ek mk t tag m id -> List.length m = sm_flight_len (fst mpk)).
  { intros ek mk t tag m id [sg [upk [csig [AD [A1 [A2 [A3 [A4 _]]]]]]]]. apply auth_decrypt_length in AD. rewrite AD, !app_length, hmac_length, A1, A2, A3, A4. unfold sm_flight_len. lia. }
  pose proof (draw32 r) as LN.
  destruct rl.
  - pose proof (smx_hist P h ssid mpk cert usk (fst (draw 32 r)) Initiator r l s eq_refl H) as X. cbn [smx] in X.
    destruct X as [_ [[_ [D0 _]]|[os [kpk [ksk [ro [KG [_ [[_ [D0 _]]|[nB [ct [r1 [rest [LB [LT [KN [OK [[_ [D0 _]]|[_ [_ [m [id [-> [ID AU]]]]]]]]]]]]]]]]]]]]]]]]; try congruence.
    cbn zeta in *. split.
    + eexists [_; _; _; _]. split; [exact OK|]. cbn [map]. rewrite L3, (LA _ _ _ _ _ _ AU), !app_length, LN, LB, LT, light_ct_bytes, (keygen_len_light _ _ _ _ _ KG). reflexivity.
    + intros i k F. cbn [IdSigmaR ik_fin] in F. destruct KN as [_ [_ [_ [_ [_ KY]]]]]. rewrite ID, KY in F. cbn [unwrap obind] in F. injection F as _ <-. apply expand_length.
  - pose proof (smx_hist P h ssid mpk cert usk (fst (draw 32 r)) Responder r l s eq_refl H) as X. cbn [smx] in X.
    destruct X as [_ [[_ [D0 _]]|[os [kpk [nA [pkb [ss [ct [ro [LA' [PK [EN [KN [[_ [D0 _]]|[_ [_ [m [id [r1 [OK [ID AU]]]]]]]]]]]]]]]]]]]]]; try congruence.
    assert (LP : List.length pkb = 672%nat).
    { destruct (Nat.eq_dec (List.length pkb) 672) as [E|E]; [exact E|]. apply light_pk_parse_panic in E. congruence. }
    split.
    + eexists [_; _; _; _]. split; [exact OK|]. cbn [map]. rewrite L4, (LA _ _ _ _ _ _ AU), !app_length, LN, LA', LP, (encaps_len_light _ _ _ _ _ _ EN). reflexivity.
    + intros i k F. cbn [IdSigmaR ik_fin] in F. destruct KN as [_ [_ [_ [_ [_ KY]]]]]. rewrite ID, KY in F. cbn [unwrap obind] in F. injection F as _ <-. apply expand_length.
Qed.

(* ------------------------------------------------------------------ *)
(** ** Who the peer is *)
Lemma side2 : forall ms a b, side Initiator ms = [([], Some a); (b, None)] -> ms = [a; b].
Proof. intros [|x [|y [|z ms]]] a b E; unfold side in E; cbn in E; try discriminate E. injection E as -> ->. reflexivity. Qed.
Lemma side3 : forall ms a b c, side Initiator ms = [([], Some a); (b, Some c)] -> ms = [a; b; c].
Proof. intros [|x [|y [|z [|w [|v ms]]]]] a b c E; unfold side in E; cbn in E; try discriminate E. injection E as -> -> ->. reflexivity. Qed.
Lemma side4 : forall ms a b c d, side Initiator ms = [([], Some a); (b, Some c); (d, None)] -> ms = [a; b; c; d].
Proof. intros [|x [|y [|z [|w [|v [|u ms]]]]]] a b c d E; unfold side in E; cbn in E; try discriminate E. injection E as -> -> -> ->. reflexivity. Qed.
Lemma pair2 : forall (a b c d : bytes), [(a, Some b)] = [(c, Some d)] -> a = c /\ b = d.
Proof. intros a b c d E. injection E as -> ->. auto. Qed.
Lemma pair3 : forall (a b c a' b' c' : bytes), [(a, Some b); (c, None)] = [(a', Some b'); (c', None)] -> a = a' /\ b = b' /\ c = c'.
Proof. intros a b c a' b' c' E. injection E as -> -> ->. auto. Qed.
Lemma pair4 : forall (a b c d a' b' c' d' : bytes), [(a, Some b); (c, Some d)] = [(a', Some b'); (c', Some d')] -> a = a' /\ b = b' /\ c = c' /\ d = d'.
Proof. intros a b c d a' b' c' d' E. injection E as -> -> -> ->. auto. Qed.
Lemma fin_id : forall (o1 : option bytes) (o2 : option bytes) id k, (let! i := unwrap o1 in let! kk := unwrap o2 in Ret (i, kk)) = Ret (id, k) -> o1 = Some id /\ o2 = Some k.
Proof. intros [a|] [b|] id k E; cbn [unwrap obind] in E; try discriminate E. injection E as -> ->. auto. Qed.

Lemma sig_dh_names_peers : forall P, names_peers (IdSigDh P) (fun _ c _ => sd_cert_wf P c) (fun _ => False).
Proof.
  intros P r ssid mpk cert usk s r' ssid' mpk' cert' usk' s' ms id id' ik W W' H D H' D' F F'. left.
  apply sdx_hist_I in H. apply sdx_hist_R in H'. cbn [IdSigDh ik_done ik_fin cert_id IST] in *.
  destruct H as [_ [[_ [D0 _]]|[e [_ [_ [[_ [D0 _]]|[_ [_ [eph [sg [idp [pk [dh [csig [OK [L1 [L2 [L3 [L4 [L5 [L6 [V1 [V2 [ID KY]]]]]]]]]]]]]]]]]]]]]]]]; try congruence.
  destruct H' as [_ [[_ [D0 _]]|[_ [_ [e' [eph' [sg' [idq [pk' [dh' [csig' [OK' [M1 [M2 [M3 [M4 [M5 [M6 [_ [_ [ID' KY']]]]]]]]]]]]]]]]]]]]]; try congruence.
  rewrite oks_as_log in OK, OK'. apply side2 in OK. subst ms. unfold side in OK'. cbn [map app conv] in OK'. apply pair2 in OK'. destruct OK' as [E1 E2].
  destruct W as [W1 [W2 [W3 [W4 _]]]], W' as [U1 [U2 [U3 [U4 _]]]].
  rewrite ID in F. rewrite ID' in F'. destruct (sd_key s); [|discriminate F]. destruct (sd_key s'); [|discriminate F'].
  cbn [unwrap obind] in F, F'. assert (EI : idp = id) by congruence. assert (EQ : idq = id') by congruence. subst idp idq. clear F F' KY KY' ID ID'.
  unfold sd_msg, sd_cert_to_bytes in E1, E2. clear - E1 E2 L1 L2 L3 M1 M2 M3 W1 U1.
  apply app_split in E1; [|rewrite x_pub_length; congruence]. destruct E1 as [_ E1]. apply app_split in E1; [|rewrite sign_length; cbn [sig_len]; congruence]. destruct E1 as [_ E1].
  apply app_split in E1; [|congruence]. destruct E1 as [E1 _].
  apply app_split in E2; [|rewrite x_pub_length; congruence]. destruct E2 as [_ E2]. apply app_split in E2; [|rewrite sign_length; cbn [sig_len]; congruence]. destruct E2 as [_ E2].
  apply app_split in E2; [|congruence]. destruct E2 as [E2 _]. auto.
Qed.
Lemma hmqv_names_peers : forall P G, group_laws G -> names_peers (IdHmqvC P G) (fun _ c _ => hm_cert_wf G c) (fun _ => False).
Proof.
  intros P G GL r ssid mpk cert usk s r' ssid' mpk' cert' usk' s' ms id id' ik W W' H D H' D' F F'. left.
  apply (hmx_hist_I P G GL) in H. apply (hmx_hist_R P G GL) in H'. cbn [IdHmqvC ik_done ik_fin cert_id IST] in *.
  destruct H as [_ [[_ [D0 _]]|[x [[_ [D0 _]]|[_ [_ [eph [upk [idp [cb [OK [CT [HI HK]]]]]]]]]]]]]; try congruence.
  destruct H' as [_ [[_ [D0 _]]|[y [ephx [upkx [idx [cbx [restx [OKx [CTx [HIx [HKx [_ [[_ [D0 _]]|[_ [_ RE]]]]]]]]]]]]]]]]; try congruence.
  cbn zeta in *. subst restx. rewrite HI, HK in F. rewrite HIx, HKx in F'. cbn [unwrap obind] in F, F'.
  assert (EI : idp = id) by congruence. assert (EQ : idx = id') by congruence. subst idp idx. clear F F' HI HIx HK HKx.
  rewrite oks_as_log in OK, OKx.
  set (m1 := hm_mac1 P G ssid _) in *. set (m0 := hm_mac0 P G ssid _) in *. set (n1 := hm_mac1 P G ssid' _) in *. set (n0 := hm_mac0 P G ssid' _) in *.
  assert (L1 : List.length m1 = 32%nat) by apply expand_length. assert (L2 : List.length n1 = 32%nat) by apply expand_length. clearbody m0 m1 n0 n1.
  apply side3 in OK. subst ms. unfold side in OKx. cbn [map app conv] in OKx. apply pair3 in OKx. destruct OKx as [E1 [E2 _]].
  destruct CT as [cg [-> [LI _]]], CTx as [cg' [-> [LI' _]]], W as [W1 _], W' as [U1 _]. unfold hm_cert_to_bytes in E1, E2. clear - E1 E2 L1 L2 LI LI' W1 U1.
  apply app_split in E1; [|rewrite !compress_length; reflexivity]. destruct E1 as [_ E1]. apply app_split in E1; [|congruence]. destruct E1 as [E1 _].
  apply app_split in E2; [|rewrite !compress_length; reflexivity]. destruct E2 as [_ E2]. apply app_split in E2; [|congruence]. destruct E2 as [_ E2].
  apply app_split in E2; [|congruence]. destruct E2 as [E2 _]. auto.
Qed.
Lemma fg_names_peers : forall P G, group_laws G -> names_peers (FgIbkeC P G) (fun _ c _ => List.length (fgc_id c) = 32%nat) (fun _ => False).
Proof.
  intros P G GL r ssid mpk cert usk s r' ssid' mpk' cert' usk' s' ms id id' ik W W' H D H' D' F F'. left.
  apply (fgx_hist_I P G GL) in H. apply (fgx_hist_R P G GL) in H'. cbn [FgIbkeC ik_done ik_fin cert_id IST] in *.
  destruct H as [[F1 _] [T [[_ [D0 _]]|[x [[_ [D0 _]]|[_ [_ [idp [X [eph [mp [_ [LI [HI [HK OK]]]]]]]]]]]]]]]; try congruence.
  destruct H' as [[F1' _] [T' [[_ [D0 _]]|[y [idq [Y [ephq [mq [rest [_ [LI' [HI' [HK' [_ [OK' [[_ [D0 _]]|[_ [_ RE]]]]]]]]]]]]]]]]]]; try congruence.
  cbn zeta in *. subst rest. unfold fg_fin in F, F'. rewrite HK, HI in F. rewrite HK', HI' in F'. cbn [unwrap obind] in F, F'.
  assert (EI : idp = id) by congruence. assert (EQ : idq = id') by congruence. subst idp idq. clear F F' HI HI' HK HK' T T'.
  rewrite oks_as_log in OK, OK'.
  set (m1 := fg_mac1 P G (fg_alpha G x eph) _) in *. set (m0 := fg_mac0 P G (fg_alpha G x eph) _) in *.
  set (n1 := fg_mac1 P G (fg_alpha G y ephq) _) in *. set (n0 := fg_mac0 P G (fg_alpha G y ephq) _) in *. clearbody m0 m1 n0 n1.
  apply side3 in OK. subst ms. unfold side in OK'. cbn [map app conv] in OK'. apply pair3 in OK'. destruct OK' as [E1 [E2 _]].
  unfold fg_hello in E1, E2. rewrite <- !app_assoc in E2. clear - E1 E2 LI LI' W W'.
  apply app_split in E1; [|congruence]. destruct E1 as [E1 _]. apply app_split in E2; [|congruence]. destruct E2 as [E2 _]. auto.
Qed.
(** The KEM exchange seen in the first two messages failed to decapsulate, and still the two
    sides' output keys are equal. *)
Definition kem_failed (P : prims) (h : saber_prims) (ms : list bytes) : Prop :=
  exists os os' nA pk nB ct m3 m4 ksk kpk ro ss ro', ms = [nA ++ pk; nB ++ ct; m3; m4] /\ List.length nA = 32%nat /\ List.length nB = 32%nat /\
    keygen_ind_cpa h LightSaber os = (kpk, ksk, ro) /\ pk = pk_to_bytes kpk /\ encapsulate_ind_cpa h LightSaber os' kpk = (ss, ct, ro') /\
    decapsulate_ind_cpa LightSaber ct ksk <> ss /\ collide P (decapsulate_ind_cpa LightSaber ct ksk) (str "output_key") ss (str "output_key").
Lemma sm_reads_cert : forall P ty mpk c sg mac ek mk tr tag id r, fst mpk = ty -> sm_cert_wf P ty c -> List.length sg = sig_len ty -> List.length mac = 32%nat ->
  sm_authentic P mpk ek mk tr tag (fst (auth_encrypt P r ek (sg ++ mac ++ sm_cert_to_bytes c))) id -> id = smc_id c.
Proof.
  intros P ty mpk c sg mac ek mk t tag id r TM W LS LM [sg' [upk [csig [AD [L1 [L2 [L3 [L4 _]]]]]]]]. rewrite auth_roundtrip in AD.
  assert (E : sg ++ mac ++ sm_cert_to_bytes c = sg' ++ hmac P mk ([tag] ++ id) ++ id ++ upk ++ csig) by congruence.
  destruct W as [_ [_ [W1 _]]]. unfold sm_cert_to_bytes in E. clear AD.
  apply app_split in E; [|congruence]. destruct E as [_ E]. apply app_split in E; [|rewrite hmac_length; congruence]. destruct E as [_ E].
  apply app_split in E; [|congruence]. destruct E as [E _]. congruence.
Qed.
Lemma sigma_names_peers : forall ty P h, names_peers (IdSigmaR ty P h) (sm_ok P ty) (kem_failed P h).
Proof.
  intros ty P h r ssid mpk cert usk s r' ssid' mpk' cert' usk' s' ms id id' ik [TM [W TU]] [TM' [W' TU']] H D H' D' F F'.
  change (MPK (IdSigmaR ty P h)) with tagged in mpk, mpk'. change (CERT (IdSigmaR ty P h)) with sm_cert in cert, cert'. change (USK (IdSigmaR ty P h)) with tagged in usk, usk'. change (IST (IdSigmaR ty P h)) with sigma in s, s'.
  assert (XI : exists l, l = @as_log (ibke_machine (IdSigmaR (fst mpk) P h)) (side Initiator ms) /\ hist (ibke_machine (IdSigmaR (fst mpk) P h)) (fst (ik_new (IdSigmaR (fst mpk) P h) r ssid mpk cert usk Initiator)) l s) by (rewrite TM; eexists; split; [reflexivity|exact H]).
  assert (XR : exists l, l = @as_log (ibke_machine (IdSigmaR (fst mpk') P h)) (side Responder ms) /\ hist (ibke_machine (IdSigmaR (fst mpk') P h)) (fst (ik_new (IdSigmaR (fst mpk') P h) r' ssid' mpk' cert' usk' Responder)) l s') by (rewrite TM'; eexists; split; [reflexivity|exact H']).
  clear H H'. destruct XI as [l [EL H]], XR as [l' [EL' H']].
  apply (smx_hist P h ssid mpk cert usk _ Initiator r l s eq_refl) in H. apply (smx_hist P h ssid' mpk' cert' usk' _ Responder r' l' s' eq_refl) in H'.
  cbn [smx] in H, H'. destruct H as [_ H], H' as [_ H']. cbn [IdSigmaR ik_done ik_fin cert_id] in *.
  destruct H as [[_ [D0 _]]|[os0 [kpk [ksk [ro [KG [SK [[_ [D0 _]]|[nB [ct [r1 [rest [LB [LC [KW [OK [[_ [D0 _]]|[_ [_ [m [idp [RE [ID AU]]]]]]]]]]]]]]]]]]]]]]]; try congruence.
  destruct H' as [[_ [D0 _]]|[os1 [kpk' [nA [pkb [ss [ct' [ro' [LA [PKB [EN [KW' [[_ [D0 _]]|[_ [_ [m' [idq [r1' [OK' [ID' AU']]]]]]]]]]]]]]]]]]]]; try congruence.
  cbn zeta in *. subst rest l l'. rewrite oks_as_log in OK, OK'.
  destruct KW as [_ [_ [_ [_ [_ KY]]]]], KW' as [_ [_ [_ [_ [_ KY']]]]]. rewrite ID, KY in F. rewrite ID', KY' in F'. cbn [unwrap obind] in F, F'.
  assert (EI : idp = id) by congruence. assert (EQ : idq = id') by congruence. assert (EO : sm_out P (decapsulate_ind_cpa LightSaber ct ksk) = sm_out P ss) by congruence. subst idp idq. clear F F'.
  remember (sm_flight3 P ssid cert usk r1 (decapsulate_ind_cpa LightSaber ct ksk) nB ct kpk) as f3 eqn:E3. remember (sm_flight4 P ssid' cert' usk' r1' ss nA ct' kpk') as f4 eqn:E4.
  apply side4 in OK. subst ms. unfold side in OK'. cbn [map app conv] in OK'. apply pair4 in OK'. destruct OK' as [P1 [P2 [P3 P4]]].
  apply app_split in P1; [|rewrite draw32, LA; reflexivity]. destruct P1 as [EA EP]. apply app_split in P2; [|rewrite draw32, LB; reflexivity]. destruct P2 as [EB EC]. subst ct' pkb m m'.
  rewrite (reload_encaps h os0 kpk ksk ro _ os1 KG PKB) in EN.
  destruct (list_eq_dec Z.eq_dec (decapsulate_ind_cpa LightSaber ct ksk) ss) as [ES|NS].
  - left. rewrite ES in *.
    assert (LS : forall t u x, fst u = ty -> List.length (snd (t_sign P u x)) = sig_len ty /\ List.length (hmac P t x) = 32%nat).
    { intros t u x TT. unfold t_sign. cbn [snd]. rewrite sign_length, TT. split; [reflexivity|apply hmac_length]. }
    split.
    + rewrite E4 in AU. unfold sm_flight4 in AU. apply (sm_reads_cert P ty) in AU; [exact AU|exact TM|exact W'|unfold t_sign; cbn [snd]; rewrite sign_length, TU'; reflexivity|apply hmac_length].
    + rewrite E3 in AU'. unfold sm_flight3 in AU'. apply (sm_reads_cert P ty) in AU'; [exact AU'|exact TM'|exact W|unfold t_sign; cbn [snd]; rewrite sign_length, TU; reflexivity|apply hmac_length].
  - right. exists os0, os1, (fst (draw 32 r)), (pk_to_bytes kpk), nB, ct, f3, f4, ksk, kpk, ro, ss, ro'.
    split; [reflexivity|]. split; [apply draw32|]. split; [exact LB|]. split; [exact KG|]. split; [reflexivity|]. split; [exact EN|]. split; [exact NS|].
    split; [left; exact NS|exact EO].
Qed.

(* ------------------------------------------------------------------ *)
(** ** LATKE over the shipped protocols *)
(** The three PAKEs meet the hypotheses of the theorems below. *)
Theorem shipped_pakes_rigid : forall P h C S n, spake_sized S n ->
  (rigid_pake (CakePake P h) [672; 736]%nat /\ silent_when_done (CakePake P h)) /\
  (rigid_pake (CpacePake C) [48; 32]%nat /\ silent_when_done (CpacePake C)) /\
  (rigid_pake (KcSpakePake P S) [n; n + 32; 32]%nat /\ silent_when_done (KcSpakePake P S)).
Proof.
  intros P h C S n Z. split; [split; [apply cake_rigid|apply cake_silent]|]. split; [split; [apply cpace_rigid|apply cpace_silent]|].
  split; [apply kc_spake2_rigid; exact Z|apply kc_spake2_silent].
Qed.
Theorem latke_sig_dh_equal_keys : forall P K ps, rigid_pake K ps -> silent_when_done K ->
  equal_keys_bind P (IdSigDh P) K (fun _ c _ => sd_cert_wf P c) (fun _ => False).
Proof.
  intros P K ps RK SD. apply (latke_equal_keys_matched P _ K _ [256; 256]%nat ps); [apply sig_dh_rigid| |discriminate|exact RK|exact SD|apply sig_dh_names_peers].
  repeat constructor; lia.
Qed.
Theorem latke_hmqv_equal_keys : forall P G K ps, group_laws G -> rigid_pake K ps -> silent_when_done K ->
  equal_keys_bind P (IdHmqvC P G) K (fun _ c _ => hm_cert_wf G c) (fun _ => False).
Proof.
  intros P G K ps GL RK SD. apply (latke_equal_keys_matched P _ K _ [160; 192; 32]%nat ps); [apply hmqv_rigid, GL| |discriminate|exact RK|exact SD|apply hmqv_names_peers, GL].
  repeat constructor; lia.
Qed.
Theorem latke_fg_equal_keys : forall P G K ps, group_laws G -> rigid_pake K ps -> silent_when_done K ->
  equal_keys_bind P (FgIbkeC P G) K (fun _ c _ => List.length (fgc_id c) = 32%nat) (fun _ => False).
Proof.
  intros P G K ps GL RK SD. apply (latke_equal_keys_matched P _ K _ [96; 128; 32]%nat ps); [apply fg_rigid, GL| |discriminate|exact RK|exact SD|apply fg_names_peers, GL].
  repeat constructor; lia.
Qed.
Theorem latke_sigma_equal_keys : forall P h ty K ps, rigid_pake K ps -> silent_when_done K ->
  equal_keys_bind P (IdSigmaR ty P h) K (sm_ok P ty) (kem_failed P h).
Proof.
  intros P h ty K ps RK SD. apply (latke_equal_keys_matched P _ K _ [704%nat; 768%nat; sm_flight_len ty; sm_flight_len ty] ps); [apply sigma_rigid| |discriminate|exact RK|exact SD|apply sigma_names_peers].
  assert (L : (0 < sm_flight_len ty)%nat) by (unfold sm_flight_len; lia). repeat constructor; try lia; exact L.
Qed.

(** The conditions on the stored credentials hold of every password file. *)
Theorem pwfile_credentials : forall P G h pw r id, List.length id = 32%nat ->
  (sig_correct P Ed25519 -> sd_cert_wf P (pf_cert (gen_pwfile P (IdSigDh P) r pw id))) /\
  (sig_correct P Ed25519 -> hm_cert_wf G (pf_cert (gen_pwfile P (IdHmqvC P G) r pw id))) /\
  List.length (fgc_id (pf_cert (gen_pwfile P (FgIbkeC P G) r pw id))) = 32%nat /\
  (forall ty, sig_correct P ty -> let pf := gen_pwfile P (IdSigmaR ty P h) r pw id in sm_ok P ty (pf_mpk pf) (pf_cert pf) (pf_usk pf)).
Proof.
  intros P G h pw r id L. split; [|split; [|split]].
  - intro C. destruct (pwfile_enrolled P (IdSigDh P) pw) as [mpk [msk [rm' [GM H]]]]. destruct (H r id) as [E1 E2].
    destruct (sd_enrolled P _ _ _ _ id _ _ C GM L E2) as [A _]. exact A.
  - intro C. destruct (pwfile_enrolled P (IdHmqvC P G) pw) as [mpk [msk [rm' [GM H]]]]. destruct (H r id) as [E1 E2].
    destruct (hm_enrolled P G _ _ _ _ id _ _ C GM L E2) as [A _]. exact A.
  - destruct (pwfile_enrolled P (FgIbkeC P G) pw) as [mpk [msk [rm' [GM H]]]]. destruct (H r id) as [E1 E2].
    destruct (fg_enrolled P G _ _ _ _ id _ _ GM E2) as [_ [x X]]. rewrite X. exact L.
  - intros ty C pf. destruct (pwfile_enrolled P (IdSigmaR ty P h) pw) as [mpk [msk [rm' [GM H]]]]. destruct (H r id) as [E1 E2].
    fold pf in E1, E2. destruct (sm_enrolled ty P h _ _ _ _ id _ _ GM L E2) as [A1 [A2 [_ [_ A3]]]]. destruct (A3 C) as [A4 _].
    unfold sm_ok. rewrite E1. auto.
Qed.
(** Two honest LATKE parties with one password meet all hypotheses. *)
Theorem equal_keys_met_by_honest_runs : forall P I K steps ok, latke_agrees P I K steps ok ->
  forall pw idI idR rgI rgR ssid rI rR (tape : nat -> rng * rng), List.length idI = 32%nat -> List.length idR = 32%nat -> ok (fun j => snd (tape j)) ->
  exists sI rI' sR rR' lI lR fI fR key,
    latke_new I K rI ssid (gen_pwfile P I rgI pw idI) Initiator (PreSpecified idR) = Ret (sI, rI') /\
    latke_new I K rR ssid (gen_pwfile P I rgR pw idR) Responder (PreSpecified idI) = Ret (sR, rR') /\
    hist (latke_machine P I K) sI lI fI /\ hist (latke_machine P I K) sR lR fR /\ latke_done I K fI = true /\ latke_done I K fR = true /\
    latke_fin P I K fI = Ret (idR, key) /\ latke_fin P I K fR = Ret (idI, key).
Proof.
  intros P I K steps ok A pw idI idR rgI rgR ssid rI rR tape LI LR OK.
  destruct (A pw idI idR rgI rgR ssid (PreSpecified idR) (PreSpecified idI) rI rR tape LI LR (or_intror (conj eq_refl eq_refl)) OK)
    as [sI [rI' [sR [rR' [outs [fI [fR [key [N1 [N2 [HR [D1 [D2 [F1 [F2 _]]]]]]]]]]]]]]].
  pose proof (drive_logs (latke_machine P I K) sI sR (steps + 1) Initiator tape sI sR [] [] [] (hist_init _ _) (hist_init _ _)) as X.
  cbv zeta in X. unfold honest_run in HR. rewrite HR in X. cbn [r_status r_outs r_init r_resp app] in X. destruct (X eq_refl) as [H1 H2].
  exists sI, rI', sR, rR'. do 2 eexists. exists fI, fR, key.
  split; [exact N1|]. split; [exact N2|]. split; [exact H1|]. split; [exact H2|]. auto.
Qed.
Example latke_equal_keys_meet : exists sI rI' sR rR' lI lR fI fR key (pf pf' : pwfile (IdSigDh toy_prims)), let I := IdSigDh toy_prims in let K := KcSpakePake toy_prims toy_spake in
  latke_new I K (fun _ => 1) [7] pf Initiator (PreSpecified (repeat 2 32)) = Ret (sI, rI') /\ latke_new I K (fun _ => 2) [7] pf' Responder (PreSpecified (repeat 1 32)) = Ret (sR, rR') /\
  hist (latke_machine toy_prims I K) sI lI fI /\ hist (latke_machine toy_prims I K) sR lR fR /\ latke_done I K fI = true /\ latke_done I K fR = true /\
  latke_fin toy_prims I K fI = Ret (repeat 2 32, key) /\ latke_fin toy_prims I K fR = Ret (repeat 1 32, key) /\
  sd_cert_wf toy_prims (pf_cert pf) /\ sd_cert_wf toy_prims (pf_cert pf') /\ rigid_pake K [32; 64; 32]%nat /\ silent_when_done K.
Proof.
  pose proof (equal_keys_met_by_honest_runs _ _ _ _ _ (latke_sig_dh_kc_spake2 toy_prims toy_spake (toy_sig_correct _) toy_dh_commutes toy_spake_correct)
    [9] (repeat 1 32) (repeat 2 32) (fun _ => 3) (fun _ => 4) [7] (fun _ => 1) (fun _ => 2) (fun _ => (fun _ => 5, fun _ => 6)) eq_refl eq_refl Logic.I) as X.
  destruct X as [sI [rI' [sR [rR' [lI [lR [fI [fR [key [N1 [N2 [H1 [H2 [D1 [D2 [F1 F2]]]]]]]]]]]]]]]].
  exists sI, rI', sR, rR', lI, lR, fI, fR, key. eexists. eexists. cbv zeta. split; [exact N1|]. split; [exact N2|].
  split; [exact H1|]. split; [exact H2|]. split; [exact D1|]. split; [exact D2|]. split; [exact F1|]. split; [exact F2|].
  split; [apply (pwfile_credentials toy_prims toy_group SaberWitness.light_wit [9] (fun _ => 3) (repeat 1 32) eq_refl); apply toy_sig_correct|].
  split; [apply (pwfile_credentials toy_prims toy_group SaberWitness.light_wit [9] (fun _ => 4) (repeat 2 32) eq_refl); apply toy_sig_correct|].
  split; [apply (kc_spake2_rigid toy_prims toy_spake 32 toy_spake_sized)|apply kc_spake2_silent].
Qed.
