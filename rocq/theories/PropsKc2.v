(** * PropsKc2: LATKE over KC-SPAKE2: one session key, one main public key, one pair of identities
    (latke.rs with pake/kc_spake2.rs) (C88). *)
From Coq Require Import ZArith List Lia Bool String.
From Verif Require Import Base Crypto Symmetric PropsSym Driver Pakes PropsPake IbkeSpec IbkeToy Chip PropsSigDh PropsHmqv PropsFg PropsSigma PropsChip
  Ibkes Eue Latke PropsLatke PropsLatke2 LatkeHist PropsMatch PropsMatch2 PropsBind PropsConv PropsConv2 PropsKc.
Import ListNotations.
Open Scope Z_scope.
Local Opaque bytes_of draw expand extract hmac compress str.

(** ** Specification *)
(** The two password files hold one main public key, and a peer that was specified beforehand is the
    owner of the other password file. *)
Definition same_main_key (I : ibke) (pf : pwfile I) (peer : peer_model) (pf' : pwfile I) (peer' : peer_model) : Prop :=
  mpk_bytes I (pf_mpk pf') = mpk_bytes I (pf_mpk pf) /\
  match peer, peer' with
  | PreSpecified a, PreSpecified b => a = cert_id I (pf_cert pf') /\ b = cert_id I (pf_cert pf)
  | PostSpecified, PostSpecified => True
  | _, _ => False
  end.
(** Identities are arrays of 32 bytes; main public keys of one IBKE have one length. *)
Definition sized_pair (I : ibke) (pf : pwfile I) (peer : peer_model) (pf' : pwfile I) (peer' : peer_model) : Prop :=
  List.length (mpk_bytes I (pf_mpk pf')) = List.length (mpk_bytes I (pf_mpk pf)) /\
  List.length (cert_id I (pf_cert pf)) = 32%nat /\ List.length (cert_id I (pf_cert pf')) = 32%nat /\
  (forall a, peer = PreSpecified a -> List.length a = 32%nat) /\ (forall b, peer' = PreSpecified b -> List.length b = 32%nat).
(** Two completed LATKE sessions over KC-SPAKE2, of opposite roles and with one session key. *)
Definition kc_equal_keys_bind (P : prims) (I : ibke) (S : spake_crate) (okc : MPK I -> CERT I -> USK I -> Prop) (bad : list bytes -> Prop) : Prop :=
  let K := KcSpakePake P S in
  forall r ssid pf peer s0 r1 l s id r' ssid' pf' peer' s0' r1' l' s' id' key,
  latke_new I K r ssid pf Initiator peer = Ret (s0, r1) -> hist (latke_machine P I K) s0 l s -> latke_done I K s = true -> okc (pf_mpk pf) (pf_cert pf) (pf_usk pf) ->
  latke_new I K r' ssid' pf' Responder peer' = Ret (s0', r1') -> hist (latke_machine P I K) s0' l' s' -> latke_done I K s' = true -> okc (pf_mpk pf') (pf_cert pf') (pf_usk pf') ->
  sized_pair I pf peer pf' peer' ->
  latke_fin P I K s = Ret (id, key) -> latke_fin P I K s' = Ret (id', key) ->
  exists ik ik' k k', inner_out I K s id ik /\ inner_out I K s' id' ik' /\ pk_fin K (l_pake s) = Ret k /\ pk_fin K (l_pake s') = Ret k' /\
    let t := Some (str "latke-tr-hash") in let f := str "latke-final" in
    let T := log_transcript l ++ ik in let T' := log_transcript l' ++ ik' in
    extract_collide P t T T' \/ collide P (extract P t T) f (extract P t T') f \/
    (exists pm c0 cs, PropsMatch.oks l = whole Initiator pm (c0 :: cs) /\ PropsMatch.oks l' = whole Responder pm (c0 :: cs) /\ opens_under_both P k ssid k' ssid' c0) \/
    exists mi mr ks mi' mr' ks' rest rest',
      let w := pake_input I pf Initiator peer in let w' := pake_input I pf' Responder peer' in
      PropsMatch.oks l = [([], Some mi); (mr ++ tag_r P w mi mr ks, Some (tag_i P w mi mr ks))] ++ rest /\
      PropsMatch.oks l' = [(mi', Some (mr' ++ tag_r P w' mi' mr' ks')); (tag_i P w' mi' mr' ks', None)] ++ rest' /\
      k = kc_key_of P w mi mr ks /\ k = kc_key_of P w' mi' mr' ks' /\
      (kc_collide P 64 w mi mr ks w' mi' mr' ks' \/
       (ssid' = ssid /\ mi' = mi /\ mr' = mr /\ ks' = ks /\ same_main_key I pf peer pf' peer' /\
        exists ms pm c0 cs, PropsMatch.oks l = whole Initiator pm (c0 :: cs) /\ PropsMatch.oks l' = whole Responder pm (c0 :: cs) /\ flights P k ssid 0 ms (c0 :: cs) /\
          ((id = cert_id I (pf_cert pf') /\ id' = cert_id I (pf_cert pf)) \/ bad ms))).

(** ** Proofs *)
(** The string given to the PAKE determines the main key and, when they were specified, the identities. *)
Lemma pake_input_binds : forall I pf peer pf' peer', sized_pair I pf peer pf' peer' ->
  pake_input I pf' Responder peer' = pake_input I pf Initiator peer -> same_main_key I pf peer pf' peer'.
Proof.
  intros I pf peer pf' peer' [LM [L1 [L2 [L3 L4]]]] E. unfold same_main_key, pake_input in *. cbn [role_eqb fst snd] in E.
  destruct peer as [a|], peer' as [b|].
  - specialize (L3 a eq_refl). specialize (L4 b eq_refl). apply app_split in E; [|exact LM]. destruct E as [E1 E2].
    apply app_split in E2; [|congruence]. destruct E2 as [E2 E3]. auto.
  - exfalso. apply (f_equal (@List.length Z)) in E. rewrite !app_length in E. rewrite LM in E. rewrite L1 in E. lia.
  - exfalso. apply (f_equal (@List.length Z)) in E. rewrite !app_length in E. rewrite LM in E. rewrite L2 in E. lia.
  - auto.
Qed.
(** The calls of a completed session begin with those of its PAKE session. *)
Lemma latke_pake_hist : forall P I K, silent_when_done K -> forall r ssid pf rl peer s0 r1 l s,
  latke_new I K r ssid pf rl peer = Ret (s0, r1) -> hist (latke_machine P I K) s0 l s -> latke_done I K s = true ->
  exists p0 xp xe, pk_new K r ssid (pake_input I pf rl peer) rl = Ret (p0, r1) /\ hist (pake_machine K) p0 (LatkeHist.oks xp) (l_pake s) /\
    pk_done K (l_pake s) = true /\ merges rl (PropsMatch.oks l) xp xe.
Proof.
  intros P I K SD r ssid pf rl peer s0 r1 l s N H D. destruct (latke_log_oks P I K l) as [x ->].
  destruct (latke_parts_hist P I K r ssid pf rl peer SD s0 r1 x s N H) as [p0 [PNW [[_ [_ [_ [xp [HP C]]]]] _]]].
  unfold latke_done in D. destruct C as [[LN _]|[k [ri [e0 [r2 [e [xe [PD [_ [_ [MG _]]]]]]]]]]]; [rewrite LN in D; discriminate D|].
  exists p0, xp, xe. rewrite oks_oks. auto.
Qed.
Theorem latke_kc_equal_keys : forall P I S n okc bad, spake_sizes S n -> equal_keys_bind P I (KcSpakePake P S) okc bad -> kc_equal_keys_bind P I S okc bad.
Proof.
  intros P I S n okc bad SZ B. unfold kc_equal_keys_bind. set (K := KcSpakePake P S). cbv zeta.
  intros r ssid pf peer s0 r1 l s id r' ssid' pf' peer' s0' r1' l' s' id' key N H D OC N' H' D' OC' Z F F'.
  assert (SD : silent_when_done K) by apply kc_spake2_silent.
  destruct (latke_pake_hist P I K SD _ _ _ _ _ _ _ _ _ N H D) as [p0 [xp [xe [PN [PH [PD MG]]]]]].
  destruct (latke_pake_hist P I K SD _ _ _ _ _ _ _ _ _ N' H' D') as [p0' [xp' [xe' [PN' [PH' [PD' MG']]]]]].
  destruct (B _ _ _ _ _ _ _ _ _ _ _ _ _ _ _ _ _ _ _ N H D OC N' H' D' OC' F F') as [ik [ik' [k [k' [IO [IO' [FK [FK' X]]]]]]]].
  exists ik, ik', k, k'. split; [exact IO|]. split; [exact IO'|]. split; [exact FK|]. split; [exact FK'|]. cbv zeta in X |- *.
  destruct X as [C|[C|[pm [c0 [cs [O1 [O2 [EK [X|[Ek [Es [ms [FL ID]]]]]]]]]]]]]; [left; exact C|right; left; exact C|right; right; left; exists pm, c0, cs; auto|right; right; right].
  subst k' ssid'. rename k into kk.
  destruct (kc_spake2_equal_keys P S n SZ _ _ _ _ _ _ _ _ _ _ _ _ _ _ PN PN' PH PH' kk PD PD' FK FK')
    as [mi [mr [ks [mi' [mr' [ks' [OP [OP' [K1 [K2 R]]]]]]]]]].
  rewrite oks_oks in OP, OP'. subst xp xp'. unfold side in MG, MG'. cbn [map app conv flip role_eqb opt_bytes] in MG, MG'.
  assert (A : PropsMatch.oks l = [([], Some mi); (mr ++ tag_r P (pake_input I pf Initiator peer) mi mr ks, Some (tag_i P (pake_input I pf Initiator peer) mi mr ks))] ++ xe).
  { destruct MG as [[A _]|[_ [m [o [yp [ye [A _]]]]]]]; [exact A|]. exfalso. destruct yp as [|? [|? [|]]]; discriminate A. }
  assert (A' : PropsMatch.oks l' = [(mi', Some (mr' ++ tag_r P (pake_input I pf' Responder peer') mi' mr' ks')); (tag_i P (pake_input I pf' Responder peer') mi' mr' ks', None)] ++ xe').
  { destruct MG' as [[A' _]|[RL _]]; [exact A'|discriminate RL]. }
  exists mi, mr, ks, mi', mr', ks', xe, xe'. split; [exact A|]. split; [exact A'|]. split; [exact K1|]. split; [exact K2|].
  destruct R as [[W [-> [-> ->]]]|C]; [right|left; exact C].
  split; [reflexivity|]. split; [reflexivity|]. split; [reflexivity|]. split; [reflexivity|]. split; [apply pake_input_binds; assumption|].
  exists ms, pm, c0, cs. auto.
Qed.


(** ** The four shipped IBKEs *)
Section Shipped.
Variables (P : prims) (G : group) (S : spake_crate) (n : nat).
Hypothesis SZ : spake_sizes S n.
Lemma kc_rigid_silent : rigid_pake (KcSpakePake P S) [n; n + 32; 32]%nat /\ silent_when_done (KcSpakePake P S).
Proof. split; [apply kc_spake2_rigid, SZ|apply kc_spake2_silent]. Qed.
Theorem latke_sig_dh_kc_equal_keys : kc_equal_keys_bind P (IdSigDh P) S (fun _ c _ => sd_cert_wf P c) (fun _ => False).
Proof. apply (latke_kc_equal_keys _ _ _ n); [exact SZ|]. destruct kc_rigid_silent as [R SD]. exact (latke_sig_dh_equal_keys P _ _ R SD). Qed.
Theorem latke_hmqv_kc_equal_keys : group_laws G -> kc_equal_keys_bind P (IdHmqvC P G) S (fun _ c _ => hm_cert_wf G c) (fun _ => False).
Proof. intro GL. apply (latke_kc_equal_keys _ _ _ n); [exact SZ|]. destruct kc_rigid_silent as [R SD]. exact (latke_hmqv_equal_keys P G _ _ GL R SD). Qed.
Theorem latke_fg_kc_equal_keys : group_laws G -> kc_equal_keys_bind P (FgIbkeC P G) S (fun _ c _ => List.length (fgc_id c) = 32%nat) (fun _ => False).
Proof. intro GL. apply (latke_kc_equal_keys _ _ _ n); [exact SZ|]. destruct kc_rigid_silent as [R SD]. exact (latke_fg_equal_keys P G _ _ GL R SD). Qed.
Theorem latke_sigma_kc_equal_keys : forall ty h, kc_equal_keys_bind P (IdSigmaR ty P h) S (sm_ok P ty) (kem_failed P h).
Proof. intros ty h. apply (latke_kc_equal_keys _ _ _ n); [exact SZ|]. destruct kc_rigid_silent as [R SD]. exact (latke_sigma_equal_keys P h ty _ _ R SD). Qed.
End Shipped.


(** ** Password files *)
(** The main public key that a password determines. *)
Definition main_key (P : prims) (I : ibke) (pw : bytes) : bytes := mpk_bytes I (fst (fst (gen_main I (p_chacha12 P (hash256 P pw))))).
Lemma pwfile_main_key : forall P I r pw id, mpk_bytes I (pf_mpk (gen_pwfile P I r pw id)) = main_key P I pw.
Proof.
  intros P I r pw id. destruct (pwfile_enrolled P I pw) as [mpk [msk [rm [GM H]]]]. rewrite (proj1 (H r id)). unfold main_key. rewrite GM. reflexivity.
Qed.
(** The password files of the four IBKEs meet [sized_pair]. *)
Lemma pwfile_names : forall P G h r pw id,
  cert_id (IdSigDh P) (pf_cert (gen_pwfile P (IdSigDh P) r pw id)) = id /\
  cert_id (IdHmqvC P G) (pf_cert (gen_pwfile P (IdHmqvC P G) r pw id)) = id /\
  cert_id (FgIbkeC P G) (pf_cert (gen_pwfile P (FgIbkeC P G) r pw id)) = id /\
  (forall ty, cert_id (IdSigmaR ty P h) (pf_cert (gen_pwfile P (IdSigmaR ty P h) r pw id)) = id).
Proof.
  intros P G h r pw id. unfold gen_pwfile.
  split; [|split; [|split; [|intro ty]]];
    match goal with |- context [gen_main ?I ?x] => destruct (gen_main I x) as [[mpk msk] rm]; destruct (gen_user I r) as [[upk usk] r1] end;
    cbn [IdSigDh IdHmqvC FgIbkeC IdSigmaR ik_extract cert_id pf_cert].
  - unfold sd_extract. reflexivity.
  - unfold hm_extract. reflexivity.
  - unfold fg_extract. match goal with |- context [s_random ?g ?x] => destruct (s_random g x) as [? ?] end. reflexivity.
  - unfold sm_extract. reflexivity.
Qed.
Lemma main_key_length : forall P G h pw pw',
  List.length (main_key P (IdSigDh P) pw') = List.length (main_key P (IdSigDh P) pw) /\
  List.length (main_key P (IdHmqvC P G) pw') = List.length (main_key P (IdHmqvC P G) pw) /\
  List.length (main_key P (FgIbkeC P G) pw') = List.length (main_key P (FgIbkeC P G) pw) /\
  (forall ty, List.length (main_key P (IdSigmaR ty P h) pw') = List.length (main_key P (IdSigmaR ty P h) pw)).
Proof.
  intros P G h pw pw'. unfold main_key.
  assert (KG : forall sc x y, List.length (fst (fst (sig_keygen P sc x))) = List.length (fst (fst (sig_keygen P sc y)))).
  { intros sc x y. unfold sig_keygen. destruct (draw 32 x), (draw 32 y). cbn [fst]. rewrite !bytes_of_length. reflexivity. }
  split; [|split; [|split; [|intro ty]]]; cbn [IdSigDh IdHmqvC FgIbkeC IdSigmaR mpk_bytes gen_main].
  - unfold sd_gen_main. apply KG.
  - apply KG.
  - unfold fg_gen_main. repeat match goal with |- context [s_random ?g ?x] => destruct (s_random g x) as [? ?] end. cbn [fst]. rewrite !compress_length. reflexivity.
  - unfold sm_gen. pose proof (KG ty (p_chacha12 P (hash256 P pw')) (p_chacha12 P (hash256 P pw))) as E.
    destruct (sig_keygen P ty (p_chacha12 P (hash256 P pw'))) as [[? ?] ?]. destruct (sig_keygen P ty (p_chacha12 P (hash256 P pw))) as [[? ?] ?]. exact E.
Qed.
Definition pwfiles_sized_at (P : prims) (I : ibke) : Prop := forall r pw id peer r' pw' id' peer', List.length id = 32%nat -> List.length id' = 32%nat ->
  (forall a, peer = PreSpecified a -> List.length a = 32%nat) -> (forall b, peer' = PreSpecified b -> List.length b = 32%nat) ->
  let pf := gen_pwfile P I r pw id in let pf' := gen_pwfile P I r' pw' id' in
  sized_pair I pf peer pf' peer' /\
  (same_main_key I pf peer pf' peer' <->
     main_key P I pw' = main_key P I pw /\
     match peer, peer' with PreSpecified a, PreSpecified b => a = id' /\ b = id | PostSpecified, PostSpecified => True | _, _ => False end).
(** For password files: sizes hold, and [same_main_key] says that the two passwords determine one main
    public key and that the specified identities are those of the other side. *)
Theorem pwfiles_sized : forall P G h, pwfiles_sized_at P (IdSigDh P) /\ pwfiles_sized_at P (IdHmqvC P G) /\ pwfiles_sized_at P (FgIbkeC P G) /\
  (forall ty, pwfiles_sized_at P (IdSigmaR ty P h)).
Proof.
  intros P G h.
  assert (X : forall I, (forall r pw id, cert_id I (pf_cert (gen_pwfile P I r pw id)) = id) ->
    (forall pw pw', List.length (main_key P I pw') = List.length (main_key P I pw)) -> pwfiles_sized_at P I).
  { intros I HN HL r pw id peer r' pw' id' peer' L L' A A'. cbv zeta. unfold sized_pair, same_main_key. rewrite !HN, !pwfile_main_key.
    split; [split; [apply HL|]; auto|reflexivity]. }
  split; [|split; [|split; [|intro ty]]]; apply X; intros; first [apply (pwfile_names P G h)|apply (main_key_length P G h)].
Qed.

(** ** The hypotheses are met *)
(** An honest run of ID-SIG-DH over KC-SPAKE2 with a toy crate has two completed sessions with one key. *)
Example kc_equal_keys_meets : exists sI rI' sR rR' lI lR fI fR key (pf pf' : pwfile (IdSigDh toy_prims)), let I := IdSigDh toy_prims in let K := KcSpakePake toy_prims toy_spake in
  latke_new I K (fun _ => 1) [7] pf Initiator (PreSpecified (repeat 2 32)) = Ret (sI, rI') /\ latke_new I K (fun _ => 2) [7] pf' Responder (PreSpecified (repeat 1 32)) = Ret (sR, rR') /\
  hist (latke_machine toy_prims I K) sI lI fI /\ hist (latke_machine toy_prims I K) sR lR fR /\ latke_done I K fI = true /\ latke_done I K fR = true /\
  latke_fin toy_prims I K fI = Ret (repeat 2 32, key) /\ latke_fin toy_prims I K fR = Ret (repeat 1 32, key) /\
  sd_cert_wf toy_prims (pf_cert pf) /\ sd_cert_wf toy_prims (pf_cert pf') /\ sized_pair I pf (PreSpecified (repeat 2 32)) pf' (PreSpecified (repeat 1 32)) /\ spake_sizes toy_spake 32.
Proof.
  pose proof (equal_keys_met_by_honest_runs _ _ _ _ _ (latke_sig_dh_kc_spake2 toy_prims toy_spake (toy_sig_correct _) toy_dh_commutes toy_spake_correct)
    [9] (repeat 1 32) (repeat 2 32) (fun _ => 3) (fun _ => 4) [7] (fun _ => 1) (fun _ => 2) (fun _ => (fun _ => 5, fun _ => 6)) eq_refl eq_refl Logic.I) as X.
  destruct X as [sI [rI' [sR [rR' [lI [lR [fI [fR [key [N1 [N2 [H1 [H2 [D1 [D2 [F1 F2]]]]]]]]]]]]]]]].
  exists sI, rI', sR, rR', lI, lR, fI, fR, key. eexists. eexists. cbv zeta. split; [exact N1|]. split; [exact N2|].
  split; [exact H1|]. split; [exact H2|]. split; [exact D1|]. split; [exact D2|]. split; [exact F1|]. split; [exact F2|].
  split; [apply (pwfile_credentials toy_prims toy_group SaberWitness.light_wit [9] (fun _ => 3) (repeat 1 32) eq_refl); apply toy_sig_correct|].
  split; [apply (pwfile_credentials toy_prims toy_group SaberWitness.light_wit [9] (fun _ => 4) (repeat 2 32) eq_refl); apply toy_sig_correct|].
  split; [|exact toy_spake_sizes].
  apply (proj1 (pwfiles_sized toy_prims toy_group SaberWitness.light_wit)); try reflexivity; intros a E; injection E as <-; reflexivity.
Qed.
