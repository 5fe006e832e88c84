(** * PropsMatch2: matching conversations of ID-SIG-DH, and key confirmation of ID-HMQV-C (C67).

    ID-SIG-DH signs role, ssid and the own ephemeral key, but not the peer's: the partner of a
    completed session is the session that sent the ephemeral key it accepted, and the keys agree
    if that session accepted ours.  ID-HMQV-C confirms by MACs: two sessions with the same
    confirmation have the same ssid and key, or their key derivation inputs are a collision. *)
From Coq Require Import ZArith List Lia Bool String.
From Verif Require Import Base Crypto Symmetric PropsSym Driver Ibkes IbkeSpec PropsSigDh PropsHmqv PropsFg PropsSigma PropsKeys IbkeToy PropsMatch.
Import ListNotations.
Open Scope Z_scope.
Local Opaque bytes_of draw expand extract hmac compress str.

(* ------------------------------------------------------------------ *)
(** ** ID-SIG-DH: specification *)
(** The string an ID-SIG-DH session signs, read off its first successful call. *)
Definition sig_dh_signs {M : machine} (rl : role) (ssid cert : bytes) (l : log M) (T : bytes) : Prop :=
  exists m eph sg rest, oks l = (m, Some (eph ++ sg ++ cert)) :: rest /\ List.length eph = 32%nat /\
    T = [match rl with Initiator => 0 | Responder => 1 end] ++ ssid ++ eph.

(* ------------------------------------------------------------------ *)
(** ** The exact log *)
Section Exact.
Variables (P : prims) (ssid mpk : bytes) (cert : sd_cert) (usk : bytes * bytes).
Let M := ibke_machine (IdSigDh P).
Let msg := sd_msg P ssid cert usk.
Definition sdx_I (l : log M) (s : sigdh) : Prop :=
  sd_fixed ssid mpk cert usk s /\
  ((sd_step s = 0%nat /\ sd_done s = false /\ oks l = []) \/
   (exists e, sd_eph_sk s = Some e /\ sd_eph_pk s = Some (x_pub P e) /\
      ((sd_step s = 2%nat /\ sd_done s = false /\ oks l = [([], Some (msg 0 e))]) \/
       (sd_step s = 4%nat /\ sd_done s = true /\ exists eph sg id pk dh csig,
          oks l = [([], Some (msg 0 e)); (eph ++ sg ++ id ++ pk ++ dh ++ csig, None)] /\
          List.length eph = 32%nat /\ List.length sg = 64%nat /\ List.length id = 32%nat /\ List.length pk = 32%nat /\ List.length dh = 32%nat /\ List.length csig = 64%nat /\
          verify P Ed25519 mpk (id ++ pk ++ dh) csig = true /\ verify P Ed25519 pk ([1] ++ ssid ++ eph) sg = true /\
          sd_id s = Some id /\
          sd_key s = Some (expand P (extract P None
            (x_dh P (snd usk) dh ++ x_dh P e dh ++ x_dh P (snd usk) eph ++ x_dh P e eph)) (ssid ++ x_pub P e ++ eph) 32))))).
Definition sdx_R (l : log M) (s : sigdh) : Prop :=
  sd_fixed ssid mpk cert usk s /\
  ((sd_step s = 1%nat /\ sd_done s = false /\ oks l = []) \/
   (sd_step s = 3%nat /\ sd_done s = true /\ exists e eph sg id pk dh csig,
      oks l = [(eph ++ sg ++ id ++ pk ++ dh ++ csig, Some (msg 1 e))] /\
      List.length eph = 32%nat /\ List.length sg = 64%nat /\ List.length id = 32%nat /\ List.length pk = 32%nat /\ List.length dh = 32%nat /\ List.length csig = 64%nat /\
      verify P Ed25519 mpk (id ++ pk ++ dh) csig = true /\ verify P Ed25519 pk ([0] ++ ssid ++ eph) sg = true /\
      sd_id s = Some id /\
      sd_key s = Some (expand P (extract P None
        (x_dh P (snd usk) dh ++ x_dh P (snd usk) eph ++ x_dh P e dh ++ x_dh P e eph)) (ssid ++ eph ++ x_pub P e) 32))).
Lemma sdx_hist_I : forall r l s, hist M (fst (ik_new (IdSigDh P) r ssid mpk cert usk Initiator)) l s -> sdx_I l s.
Proof.
  intros r l s H. induction H as [|l s rr m s' o H IH E].
  { split; [repeat split|]. left. repeat split; reflexivity. }
  cbn [M m_run ibke_machine IdSigDh ik_run] in E. obi E. injection E as <- <-. rename E0 into E.
  destruct IH as [F IH]. pose proof F as [F1 [F2 [F3 F4]]]. unfold sd_run in E. rewrite F1, F2, F3, F4 in E.
  destruct IH as [[ST [D OK]]|[e [ES [EP [[ST [D OK]]|[ST _]]]]]]; rewrite ST in E; [| |discriminate E].
  - obi E. injection E as <- <- <-. split; [repeat split|]. right. destruct m; [|discriminate].
    eexists. cbn [sd_eph_sk sd_eph_pk sd_step sd_done]. split; [reflexivity|]. split; [reflexivity|]. left. split; [reflexivity|]. split; [exact D|].
    rewrite oks_ok, OK. reflexivity.
  - rewrite ES, EP in E. obi E.
    match type of E with (if negb ?u then _ else _) = _ => destruct u eqn:V1 end; cbn [negb] in E.
    2:{ injection E as <- <- <-. split; [exact F|]. right. exists e. rewrite oks_err. auto 10. }
    match type of E with (if negb ?u then _ else _) = _ => destruct u eqn:V2 end; cbn [negb] in E.
    2:{ injection E as <- <- <-. split; [repeat split|]. right. exists e. rewrite oks_err. cbn [sd_eph_sk sd_eph_pk sd_step sd_done]. auto 10. }
    obi E. unw. injection E as <- <- <-. split; [repeat split|]. right. exists e. cbn [sd_eph_sk sd_eph_pk sd_step sd_done sd_id sd_key].
    split; [reflexivity|]. split; [reflexivity|]. right. split; [reflexivity|]. split; [reflexivity|].
    match goal with X : sd_parse _ _ = Ret (_, _, ?c) |- _ => apply sd_parse_inv in X; destruct X as [-> [L1 [L2 [L3 [L4 [L5 [L6 _]]]]]]]; destruct c as [id [pk dh] cs] end.
    unfold sd_cert_valid in V1. cbn [sdc_id sdc_upk sdc_sig fst snd] in *.
    do 6 eexists. split; [rewrite oks_ok, OK; reflexivity|]. repeat (split; [eassumption|]). split; reflexivity.
Qed.
Lemma sdx_hist_R : forall r l s, hist M (fst (ik_new (IdSigDh P) r ssid mpk cert usk Responder)) l s -> sdx_R l s.
Proof.
  intros r l s H. induction H as [|l s rr m s' o H IH E].
  { split; [repeat split|]. left. repeat split; reflexivity. }
  cbn [M m_run ibke_machine IdSigDh ik_run] in E. obi E. injection E as <- <-. rename E0 into E.
  destruct IH as [F IH]. pose proof F as [F1 [F2 [F3 F4]]]. unfold sd_run in E. rewrite F1, F2, F3, F4 in E.
  destruct IH as [[ST [D OK]]|[ST _]]; rewrite ST in E; [|discriminate E].
  obi E.
  match type of E with (if negb ?u then _ else _) = _ => destruct u eqn:V1 end; cbn [negb] in E.
  2:{ injection E as <- <- <-. split; [exact F|]. left. rewrite oks_err. auto. }
  match type of E with (if negb ?u then _ else _) = _ => destruct u eqn:V2 end; cbn [negb] in E.
  2:{ injection E as <- <- <-. split; [repeat split|]. left. rewrite oks_err. cbn [sd_step sd_done]. auto. }
  obi E. injection E as <- <- <-. split; [repeat split|]. right. cbn [sd_step sd_done sd_id sd_key].
  split; [reflexivity|]. split; [reflexivity|].
  match goal with X : sd_parse _ _ = Ret (_, _, ?c) |- _ => apply sd_parse_inv in X; destruct X as [-> [L1 [L2 [L3 [L4 [L5 [L6 _]]]]]]]; destruct c as [id [pk dh] cs] end.
  unfold sd_cert_valid in V1. cbn [sdc_id sdc_upk sdc_sig fst snd] in *.
  do 7 eexists. split; [rewrite oks_ok, OK; reflexivity|]. repeat (split; [eassumption|]). split; reflexivity.
Qed.
End Exact.

Lemma x_pub_len : forall P e, List.length (x_pub P e) = 32%nat.
Proof. intros. apply bytes_of_length. Qed.

(* ------------------------------------------------------------------ *)
(** ** Matching conversations *)
(** The responder that signed T answered a message m'; it has the initiator's key if m' carried
    the initiator's ephemeral and static keys and the accepted certificate its own static key. *)
Theorem sig_dh_initiator_matched : forall P ssid mpk cert usk r l s, let I := IdSigDh P in
  hist (ibke_machine I) (fst (ik_new I r ssid mpk cert usk Initiator)) l s -> ik_done I s = true ->
  exists e eph sg id pk dh csig k T, ik_fin I s = Ret (id, k) /\
    oks l = [([], Some (sd_msg P ssid cert usk 0 e)); (eph ++ sg ++ id ++ pk ++ dh ++ csig, None)] /\
    verify P Ed25519 mpk (id ++ pk ++ dh) csig = true /\ verify P Ed25519 pk T sg = true /\
    forall mpk' r' ssid' cert' usk' rl' l' s',
      hist (ibke_machine I) (fst (ik_new I r' ssid' mpk' cert' usk' rl')) l' s' ->
      List.length ssid' = List.length ssid -> sig_dh_signs rl' ssid' (sd_cert_to_bytes cert') l' T ->
      rl' = Responder /\ ssid' = ssid /\
      exists m' e', oks l' = [(m', Some (sd_msg P ssid cert' usk' 1 e'))] /\ eph = x_pub P e' /\
        (dh_commutes P -> dh = x_pub P (snd usk') ->
         forall sg' id' pk' csig', m' = x_pub P e ++ sg' ++ id' ++ pk' ++ x_pub P (snd usk) ++ csig' ->
           List.length sg' = 64%nat -> List.length id' = 32%nat -> List.length pk' = 32%nat ->
           ik_fin I s' = Ret (id', k)).
Proof.
  intros P ssid mpk cert usk r l s I H D. unfold I in *. clear I. apply sdx_hist_I in H. cbn [IdSigDh ik_done IST] in D.
  destruct H as [_ [[_ [D0 _]]|[e [_ [_ [[_ [D0 _]]|[_ [_ [eph [sg [id [pk [dh [csig [OK [L1 [L2 [L3 [L4 [L5 [L6 [V1 [V2 [ID KY]]]]]]]]]]]]]]]]]]]]]]]]; try congruence.
  do 7 eexists. exists (expand P (extract P None (x_dh P (snd usk) dh ++ x_dh P e dh ++ x_dh P (snd usk) eph ++ x_dh P e eph)) (ssid ++ x_pub P e ++ eph) 32), ([1] ++ ssid ++ eph).
  split; [cbn [IdSigDh ik_fin]; rewrite ID, KY; reflexivity|]. split; [exact OK|]. split; [exact V1|]. split; [exact V2|].
  intros mpk' r' ssid' cert' usk' rl' l' s' H' LS [m0 [eph0 [sg0 [rest [OK' [L0 ET]]]]]].
  destruct rl'; [discriminate ET|]. injection ET as ET. apply app_split in ET; [|congruence]. destruct ET as [<- <-].
  split; [reflexivity|]. split; [reflexivity|]. apply sdx_hist_R in H'.
  destruct H' as [_ [[_ [_ OKx]]|[_ [_ [e' [eph' [sg' [id' [pk' [dh' [csig' [OKx [M1 [M2 [M3 [M4 [M5 [M6 [W1 [W2 [ID' KY']]]]]]]]]]]]]]]]]]]]]; rewrite OKx in OK'; [discriminate OK'|].
  injection OK' as _ EM _. unfold sd_msg in EM. apply app_split in EM; [|rewrite x_pub_len; congruence]. destruct EM as [EE _].
  eexists _, e'. split; [exact OKx|]. split; [congruence|]. intros C DH sgx idx pkx cx EX N1 N2 N3.
  apply app_split in EX; [|rewrite x_pub_len; congruence]. destruct EX as [E1 EX]. apply app_split in EX; [|congruence]. destruct EX as [E2 EX].
  apply app_split in EX; [|congruence]. destruct EX as [E3 EX]. apply app_split in EX; [|congruence]. destruct EX as [E4 EX].
  apply app_split in EX; [|rewrite x_pub_len; congruence]. destruct EX as [E5 _].
  cbn [IdSigDh ik_fin]. rewrite ID', KY', E3, E5, E1, DH, <- EE. cbn [unwrap obind].
  rewrite (C (snd usk') (snd usk)), (C (snd usk') e), (C e' (snd usk)), (C e' e). reflexivity.
Qed.
Theorem sig_dh_responder_matched : forall P ssid mpk cert usk r l s, let I := IdSigDh P in
  hist (ibke_machine I) (fst (ik_new I r ssid mpk cert usk Responder)) l s -> ik_done I s = true ->
  exists e eph sg id pk dh csig k T, ik_fin I s = Ret (id, k) /\
    oks l = [(eph ++ sg ++ id ++ pk ++ dh ++ csig, Some (sd_msg P ssid cert usk 1 e))] /\
    verify P Ed25519 mpk (id ++ pk ++ dh) csig = true /\ verify P Ed25519 pk T sg = true /\
    forall mpk' r' ssid' cert' usk' rl' l' s',
      hist (ibke_machine I) (fst (ik_new I r' ssid' mpk' cert' usk' rl')) l' s' ->
      List.length ssid' = List.length ssid -> sig_dh_signs rl' ssid' (sd_cert_to_bytes cert') l' T ->
      rl' = Initiator /\ ssid' = ssid /\
      exists e' rest, oks l' = ([], Some (sd_msg P ssid cert' usk' 0 e')) :: rest /\ eph = x_pub P e' /\
        (dh_commutes P -> dh = x_pub P (snd usk') ->
         forall sg' id' pk' csig', rest = [(x_pub P e ++ sg' ++ id' ++ pk' ++ x_pub P (snd usk) ++ csig', None)] ->
           List.length sg' = 64%nat -> List.length id' = 32%nat -> List.length pk' = 32%nat ->
           ik_fin I s' = Ret (id', k)).
Proof.
  intros P ssid mpk cert usk r l s I H D. unfold I in *. clear I. apply sdx_hist_R in H. cbn [IdSigDh ik_done IST] in D.
  destruct H as [_ [[_ [D0 _]]|[_ [_ [e [eph [sg [id [pk [dh [csig [OK [L1 [L2 [L3 [L4 [L5 [L6 [V1 [V2 [ID KY]]]]]]]]]]]]]]]]]]]]]; try congruence.
  do 7 eexists. exists (expand P (extract P None (x_dh P (snd usk) dh ++ x_dh P (snd usk) eph ++ x_dh P e dh ++ x_dh P e eph)) (ssid ++ eph ++ x_pub P e) 32), ([0] ++ ssid ++ eph).
  split; [cbn [IdSigDh ik_fin]; rewrite ID, KY; reflexivity|]. split; [exact OK|]. split; [exact V1|]. split; [exact V2|].
  intros mpk' r' ssid' cert' usk' rl' l' s' H' LS [m0 [eph0 [sg0 [rest [OK' [L0 ET]]]]]].
  destruct rl'; [|discriminate ET]. injection ET as ET. apply app_split in ET; [|congruence]. destruct ET as [<- <-].
  split; [reflexivity|]. split; [reflexivity|]. apply sdx_hist_I in H'.
  destruct H' as [_ [[_ [_ OKx]]|[e' [_ [_ [[_ [_ OKx]]|[_ [_ [eph' [sg' [id' [pk' [dh' [csig' [OKx [M1 [M2 [M3 [M4 [M5 [M6 [W1 [W2 [ID' KY']]]]]]]]]]]]]]]]]]]]]]]]; rewrite OKx in OK'; [discriminate OK'| |];
  injection OK' as _ EM _; unfold sd_msg in EM; (apply app_split in EM; [|rewrite x_pub_len; congruence]); destruct EM as [EE _]; exists e'; eexists; (split; [exact OKx|]); (split; [congruence|]).
  { intros C DH sgx idx pkx cx RE. discriminate RE. }
  intros C DH sgx idx pkx cx RE N1 N2 N3. injection RE as EX.
  apply app_split in EX; [|rewrite x_pub_len; congruence]. destruct EX as [E1 EX]. apply app_split in EX; [|congruence]. destruct EX as [E2 EX].
  apply app_split in EX; [|congruence]. destruct EX as [E3 EX]. apply app_split in EX; [|congruence]. destruct EX as [E4 EX].
  apply app_split in EX; [|rewrite x_pub_len; congruence]. destruct EX as [E5 _].
  cbn [IdSigDh ik_fin]. rewrite ID', KY', E3, E5, E1, DH, <- EE. cbn [unwrap obind].
  rewrite (C (snd usk') (snd usk)), (C e' (snd usk)), (C (snd usk') e), (C e' e). reflexivity.
Qed.

(* ------------------------------------------------------------------ *)
(** ** ID-HMQV-C *)
(** Two inputs of HKDF-Expand that differ and give the same 32 bytes. *)
Definition collide (P : prims) (a i b j : bytes) : Prop := (a <> b \/ i <> j) /\ expand P a i 32 = expand P b j 32.
(** The shared point of a session with identity [my_id], static secret [usk] and ephemeral
    secret [x], and a peer [id] with ephemeral key [eph] and static key [upk]. *)
Definition hm_point (P : prims) (G : group) (my_id : bytes) (usk x : scalar G) (eph upk : point G) (id : bytes) : point G :=
  g_mul G (g_add G eph (g_mul G upk (s_from_hash P G (compress G eph ++ my_id))))
    (s_add G x (s_mul G (s_from_hash P G (compress G (g_base G x) ++ id)) usk)).
Section Hmqv.
Variables (P : prims) (G : group) (GL : group_laws G) (ssid mpk : bytes) (cert : hm_cert G) (usk : scalar G).
Let M := ibke_machine (IdHmqvC P G).
Let pt := hm_point P G (hmc_id cert) usk.
Definition hmx_I (l : log M) (s : hmqv G) : Prop :=
  hm_fixed G ssid mpk cert usk s /\
  ((hm_step s = 0%nat /\ hm_done s = false /\ oks l = []) \/
   (exists x, let hello := compress G (g_base G x) ++ hm_cert_to_bytes G cert in
      (hm_step s = 2%nat /\ hm_done s = false /\ hm_eph_sk s = Some x /\ hm_eph_pk s = Some (g_base G x) /\ oks l = [([], Some hello)]) \/
      (hm_step s = 4%nat /\ hm_done s = true /\ exists eph upk id certb, let sg := pt x eph upk id in
         oks l = [([], Some hello); (compress G eph ++ hm_mac1 P G ssid sg ++ certb, Some (hm_mac0 P G ssid sg))] /\
         hm_certified P G mpk certb id upk /\ hm_id s = Some id /\ hm_key s = Some (hm_skey P G ssid sg)))).
Definition hmx_R (l : log M) (s : hmqv G) : Prop :=
  hm_fixed G ssid mpk cert usk s /\
  ((hm_step s = 1%nat /\ hm_done s = false /\ oks l = []) \/
   (exists y eph upk id certb rest, let sg := pt y eph upk id in
      oks l = (compress G eph ++ certb, Some (compress G (g_base G y) ++ hm_mac1 P G ssid sg ++ hm_cert_to_bytes G cert)) :: rest /\
      hm_certified P G mpk certb id upk /\ hm_id s = Some id /\ hm_key s = Some (hm_skey P G ssid sg) /\
      hm_macs s = Some (hm_mac0 P G ssid sg, hm_mac1 P G ssid sg) /\
      ((hm_step s = 3%nat /\ hm_done s = false /\ rest = []) \/
       (hm_step s = 5%nat /\ hm_done s = true /\ rest = [(hm_mac0 P G ssid sg, None)])))).
Lemma hmx_hist_I : forall r l s, hist M (fst (ik_new (IdHmqvC P G) r ssid mpk cert usk Initiator)) l s -> hmx_I l s.
Proof.
  intros r l s H. induction H as [|l s rr m s' o H IH E].
  { split; [unfold hm_fixed; cbn; auto|]. left. repeat split; reflexivity. }
  cbn [M m_run ibke_machine IdHmqvC ik_run] in E. obi E. injection E as <- <-. rename E0 into E.
  destruct IH as [F IH]. pose proof F as [F1 [F2 [F3 F4]]]. unfold hm_run in E. rewrite F1, F2, F3, F4 in E.
  destruct IH as [[ST [D OK]]|[x [[ST [D [SK [PK OK]]]]|[ST _]]]]; rewrite ST in E; [| |discriminate E]; cbn zeta in *.
  - destruct m; cbn [List.length Nat.eqb assert_] in E; [|discriminate E].
    unfold hm_gen_user in E. destruct (s_random G (fst rr)) as [x rx]. cbn beta iota in E. injection E as <- <- <-.
    split; [unfold hm_fixed; cbn; auto|]. right. exists x. left. cbn [hm_step hm_done hm_eph_sk hm_eph_pk]. rewrite oks_ok, OK. auto 10.
  - rewrite SK, PK in E. obi E.
    match type of E with (if negb ?u then _ else _) = _ => destruct u eqn:V end; cbn [negb] in E.
    2:{ injection E as <- <- <-. split; [exact F|]. right. exists x. left. rewrite oks_err. auto 10. }
    cbn [unwrap obind] in E. rewrite hm_derive_ok in E. cbn [obind] in E.
    repeat match goal with X : split_at _ _ = Ret _ |- _ => apply split_at_inv in X; destruct X as [-> ?] end.
    match goal with X : decompress _ _ = Ret _ |- _ => apply (decompress_inv G _ _ GL) in X; subst end.
    match goal with X : hm_cert_from_bytes _ _ = Ret ?c |- _ => pose proof (hm_certified_of P G GL mpk _ _ X V) as CT end.
    match type of E with (if negb ?u then _ else _) = _ => destruct u eqn:Q end; cbn [negb] in E.
    2:{ injection E as <- <- <-. split; [unfold hm_fixed; cbn; auto|]. right. exists x. left. rewrite oks_err. cbn [hm_step hm_done hm_eph_sk hm_eph_pk]. auto 10. }
    apply beq_spec in Q. injection E as <- <- <-. split; [unfold hm_fixed; cbn; auto|]. right. exists x. right.
    cbn [hm_step hm_done hm_id hm_key]. split; [reflexivity|]. split; [reflexivity|].
    do 4 eexists. split; [rewrite oks_ok, OK, Q; reflexivity|]. split; [exact CT|]. split; reflexivity.
Qed.
Lemma hmx_hist_R : forall r l s, hist M (fst (ik_new (IdHmqvC P G) r ssid mpk cert usk Responder)) l s -> hmx_R l s.
Proof.
  intros r l s H. induction H as [|l s rr m s' o H IH E].
  { split; [unfold hm_fixed; cbn; auto|]. left. repeat split; reflexivity. }
  cbn [M m_run ibke_machine IdHmqvC ik_run] in E. obi E. injection E as <- <-. rename E0 into E.
  destruct IH as [F IH]. pose proof F as [F1 [F2 [F3 F4]]]. unfold hm_run in E. rewrite F1, F2, F3, F4 in E.
  destruct IH as [[ST [D OK]]|[y [eph [upk [id [cb [rest [OK [CT [HI [HK [MC [[ST [D RE]]|[ST _]]]]]]]]]]]]]]; rewrite ST in E; [| |discriminate E]; cbn zeta in *.
  - obi E. match type of E with (if negb ?u then _ else _) = _ => destruct u eqn:V end; cbn [negb] in E.
    2:{ injection E as <- <- <-. split; [exact F|]. left. rewrite oks_err. auto. }
    unfold hm_gen_user in E. destruct (s_random G (fst rr)) as [y ry]. cbn beta iota in E. rewrite hm_derive_ok in E. cbn [obind] in E.
    repeat match goal with X : split_at _ _ = Ret _ |- _ => apply split_at_inv in X; destruct X as [-> ?] end.
    match goal with X : decompress _ _ = Ret _ |- _ => apply (decompress_inv G _ _ GL) in X; subst end.
    match goal with X : hm_cert_from_bytes _ _ = Ret ?c |- _ => pose proof (hm_certified_of P G GL mpk _ _ X V) as CT end.
    injection E as <- <- <-. split; [unfold hm_fixed; cbn; auto|]. right. exists y. do 5 eexists. cbn zeta. cbn [hm_step hm_done hm_id hm_key hm_macs].
    split; [rewrite oks_ok, OK; reflexivity|]. split; [exact CT|]. split; [reflexivity|]. split; [reflexivity|]. split; [reflexivity|]. left. auto.
  - subst rest. rewrite MC in E. cbn [unwrap obind] in E. match type of E with (if negb ?u then _ else _) = _ => destruct u eqn:Q end; cbn [negb] in E.
    2:{ injection E as <- <- <-. split; [exact F|]. right. exists y, eph, upk, id, cb, []. cbn zeta. rewrite oks_err. auto 10. }
    apply beq_spec in Q. injection E as <- <- <-. split; [unfold hm_fixed; cbn; auto|]. right. exists y, eph, upk, id, cb. eexists. cbn zeta. cbn [hm_step hm_done hm_id hm_key hm_macs].
    split; [rewrite oks_ok, OK; reflexivity|]. split; [exact CT|]. split; [exact HI|]. split; [exact HK|]. split; [reflexivity|]. right. rewrite Q. auto.
Qed.
End Hmqv.
Lemma expand_same_or_collide : forall P a i b j, expand P a i 32 = expand P b j 32 -> (a = b /\ i = j) \/ collide P a i b j.
Proof.
  intros P a i b j E. destruct (list_eq_dec Z.eq_dec a b) as [A|A]; [|right; split; auto].
  destruct (list_eq_dec Z.eq_dec i j) as [B|B]; [left; auto|right; split; auto].
Qed.
Lemma two_entries : forall (m0 m0' m m' : bytes) (a a' : option bytes) (b b' : bytes),
  [(m0, a); (m, Some b)] = [(m0', a'); (m', Some b')] -> a = a' /\ b = b'.
Proof. intros. split; congruence. Qed.
Lemma mac0_same_or_collide : forall P G ssid ssid' a b, List.length ssid' = List.length ssid -> hm_mac0 P G ssid' b = hm_mac0 P G ssid a ->
  (compress G a = compress G b /\ ssid' = ssid /\ hm_skey P G ssid' b = hm_skey P G ssid a) \/
  collide P (compress G a) (ssid ++ str "mac0") (compress G b) (ssid' ++ str "mac0").
Proof.
  intros P G ssid ssid' a b L E. unfold hm_mac0 in E. symmetry in E. unfold hm_skey.
  generalize dependent (compress G a). generalize dependent (compress G b). intros cb ca E. generalize dependent (str "mac0"). intros t E.
  destruct (expand_same_or_collide _ _ _ _ _ E) as [[EA ES]|C]; [left|right; exact C].
  apply app_split in ES; [|symmetry; exact L]. destruct ES as [ES _]. subst. auto.
Qed.
(** A completed ID-HMQV-C initiator, and any responder session that answered with the MAC the
    initiator accepted: same ssid, same shared point and same key, or their MAC inputs collide. *)
Theorem hmqv_initiator_matched : forall P G, group_laws G -> forall ssid mpk cert usk r l s, let I := IdHmqvC P G in
  hist (ibke_machine I) (fst (ik_new I r ssid mpk cert usk Initiator)) l s -> ik_done I s = true ->
  exists x eph upk id certb mac1 mac0 k,
    ik_fin I s = Ret (id, k) /\ hm_certified P G mpk certb id upk /\
    oks l = [([], Some (compress G (g_base G x) ++ hm_cert_to_bytes G cert)); (compress G eph ++ mac1 ++ certb, Some mac0)] /\
    forall ssid' mpk' cert' usk' r' l' s' m' eph' certb' rest,
      hist (ibke_machine I) (fst (ik_new I r' ssid' mpk' cert' usk' Responder)) l' s' ->
      List.length ssid' = List.length ssid ->
      oks l' = (m', Some (eph' ++ mac1 ++ certb')) :: rest -> List.length eph' = 32%nat ->
      exists y ephx upkx idx k',
        let a := compress G (hm_point P G (hmc_id cert) usk x eph upk id) in
        let b := compress G (hm_point P G (hmc_id cert') usk' y ephx upkx idx) in
        eph' = compress G (g_base G y) /\ ik_fin I s' = Ret (idx, k') /\
        ((a = b /\ ssid' = ssid /\ k' = k) \/ collide P a (ssid ++ str "mac1") b (ssid' ++ str "mac1")).
Proof.
  intros P G GL ssid mpk cert usk r l s I H D. unfold I in *. clear I. apply (hmx_hist_I P G GL) in H. cbn [IdHmqvC ik_done IST] in D.
  destruct H as [_ [[_ [D0 _]]|[x [[_ [D0 _]]|[_ [_ [eph [upk [id [cb [OK [CT [HI HK]]]]]]]]]]]]]; try congruence.
  cbn zeta in *. set (sg := hm_point P G (hmc_id cert) usk x eph upk id) in *.
  exists x, eph, upk, id, cb, (hm_mac1 P G ssid sg), (hm_mac0 P G ssid sg), (hm_skey P G ssid sg).
  split; [cbn [IdHmqvC ik_fin]; rewrite HI, HK; reflexivity|]. split; [exact CT|]. split; [exact OK|].
  intros ssid' mpk' cert' usk' r' l' s' m' eph' cb' rest H' LS OK' LE. apply (hmx_hist_R P G GL) in H'.
  destruct H' as [_ [[_ [_ OKx]]|[y [ephx [upkx [idx [cbx [restx [OKx [CTx [HIx [HKx _]]]]]]]]]]]]; cbn zeta in *; rewrite OKx in OK'; [discriminate OK'|].
  injection OK' as _ EM _. apply app_split in EM; [|rewrite compress_length; congruence]. destruct EM as [EE EM].
  apply app_split in EM; [|unfold hm_mac1; rewrite !expand_length; reflexivity]. destruct EM as [EM _].
  exists y, ephx, upkx, idx, (hm_skey P G ssid' (hm_point P G (hmc_id cert') usk' y ephx upkx idx)). split; [congruence|].
  split; [cbn [IdHmqvC ik_fin]; rewrite HIx, HKx; reflexivity|].
  unfold hm_mac1 in EM. symmetry in EM. destruct (expand_same_or_collide _ _ _ _ _ EM) as [[EA ES]|C]; [left|right; exact C].
  apply app_split in ES; [|symmetry; exact LS]. destruct ES as [<- _]. split; [exact EA|]. split; [reflexivity|].
  unfold hm_skey. fold sg in EA. rewrite EA. reflexivity.
Qed.
(** The same for a completed responder and any initiator session that sent the MAC it accepted. *)
Theorem hmqv_responder_matched : forall P G, group_laws G -> forall ssid mpk cert usk r l s, let I := IdHmqvC P G in
  hist (ibke_machine I) (fst (ik_new I r ssid mpk cert usk Responder)) l s -> ik_done I s = true ->
  exists y eph upk id certb mac1 mac0 k,
    ik_fin I s = Ret (id, k) /\ hm_certified P G mpk certb id upk /\
    oks l = [(compress G eph ++ certb, Some (compress G (g_base G y) ++ mac1 ++ hm_cert_to_bytes G cert)); (mac0, None)] /\
    forall ssid' mpk' cert' usk' r' l' s' m0 m1 m,
      hist (ibke_machine I) (fst (ik_new I r' ssid' mpk' cert' usk' Initiator)) l' s' ->
      List.length ssid' = List.length ssid -> oks l' = [(m0, m1); (m, Some mac0)] ->
      exists x ephx upkx idx k',
        let a := compress G (hm_point P G (hmc_id cert) usk y eph upk id) in
        let b := compress G (hm_point P G (hmc_id cert') usk' x ephx upkx idx) in
        m1 = Some (compress G (g_base G x) ++ hm_cert_to_bytes G cert') /\ ik_fin I s' = Ret (idx, k') /\
        ((a = b /\ ssid' = ssid /\ k' = k) \/ collide P a (ssid ++ str "mac0") b (ssid' ++ str "mac0")).
Proof.
  intros P G GL ssid mpk cert usk r l s I H D. unfold I in *. clear I. apply (hmx_hist_R P G GL) in H. cbn [IdHmqvC ik_done IST] in D.
  destruct H as [_ [[_ [D0 _]]|[y [eph [upk [id [cb [rest [OK [CT [HI [HK [MC [[_ [D0 _]]|[_ [_ RE]]]]]]]]]]]]]]]]; try congruence.
  cbn zeta in *. set (sg := hm_point P G (hmc_id cert) usk y eph upk id) in *. subst rest.
  exists y, eph, upk, id, cb, (hm_mac1 P G ssid sg), (hm_mac0 P G ssid sg), (hm_skey P G ssid sg).
  split; [cbn [IdHmqvC ik_fin]; rewrite HI, HK; reflexivity|]. split; [exact CT|]. split; [exact OK|].
  intros ssid' mpk' cert' usk' r' l' s' m0 m1 m H' LS OK'. apply (hmx_hist_I P G GL) in H'.
  destruct H' as [_ [[_ [_ OKx]]|[x [[_ [_ [_ [_ OKx]]]]|[_ [_ [ephx [upkx [idx [cbx [OKx [CTx [HIx HKx]]]]]]]]]]]]]; cbn zeta in *; rewrite OKx in OK'; try discriminate OK'.
  destruct (two_entries _ _ _ _ _ _ _ _ OK') as [E1 EM]. clear OK'.
  exists x, ephx, upkx, idx, (hm_skey P G ssid' (hm_point P G (hmc_id cert') usk' x ephx upkx idx)). split; [symmetry; exact E1|].
  split; [cbn [IdHmqvC ik_fin]; rewrite HIx, HKx; reflexivity|].
  clear - EM LS. exact (mac0_same_or_collide _ _ _ _ _ _ LS EM).
Qed.
