(** * PropsBind: what equal keys imply, and what a wrong ssid does (C68). *)
From Coq Require Import ZArith List Lia Bool String.
From Verif Require Import Base SaberPoly SaberKem SaberSpec Crypto Symmetric PropsSym Driver Pakes PropsPake Ibkes IbkeSpec
  PropsSigDh PropsHmqv PropsFg PropsSigma SigmaDil IbkeToy PropsPanic PropsKeys PropsMatch PropsMatch2.
Import ListNotations.
Open Scope Z_scope.
Local Opaque bytes_of draw expand extract hmac compress str.

(* ------------------------------------------------------------------ *)
(** ** Specification *)
(** Two different inputs of HKDF-Extract with one output. *)
Definition extract_collide (P : prims) (s : option bytes) (a b : bytes) : Prop := a <> b /\ extract P s a = extract P s b.
Lemma extract_same_or_collide : forall P s a b, extract P s a = extract P s b -> a = b \/ extract_collide P s a b.
Proof. intros P s a b E. destruct (list_eq_dec Z.eq_dec a b) as [A|A]; [left; exact A|right; split; assumption]. Qed.
Lemma app_split_r : forall (a b c d : bytes), a ++ b = c ++ d -> List.length b = List.length d -> a = c /\ b = d.
Proof.
  intros a b c d E L. apply app_split; [exact E|]. apply (f_equal (@List.length Z)) in E. rewrite !app_length in E. lia.
Qed.

(* ------------------------------------------------------------------ *)
(** ** The exact log of an FG-IBKE-C session *)
Section Fg.
Variables (P : prims) (G : group) (GL : group_laws G) (ssid mpk : bytes) (cert : fg_cert G).
Let M := ibke_machine (FgIbkeC P G).
Let al := fg_alpha G.
Let be := fun mp x eph id X => fg_beta P G mp x (fgc_xhat cert) eph id X.
Definition fgx_I (l : log M) (s : fgibke G) : Prop :=
  fg_fixed G ssid mpk cert s /\ fg_trans s = log_transcript l /\
  ((fg_step s = 0%nat /\ fg_done s = false /\ oks l = []) \/
   (exists x, (fg_step s = 2%nat /\ fg_done s = false /\ fg_eph_sk s = Some x /\ oks l = [([], Some (fg_hello G cert x))]) \/
      (fg_step s = 4%nat /\ fg_done s = true /\ exists id X eph mp, let a := al x eph in let b := be mp x eph id X in
         mpk = compress G mp /\ List.length id = 32%nat /\ fg_id s = Some id /\ fg_key s = Some (fg_skey P G a b) /\
         oks l = [([], Some (fg_hello G cert x)); (id ++ compress G X ++ compress G eph ++ fg_mac1 P G a b, Some (fg_mac0 P G a b))]))).
Definition fgx_R (l : log M) (s : fgibke G) : Prop :=
  fg_fixed G ssid mpk cert s /\ fg_trans s = log_transcript l /\
  ((fg_step s = 1%nat /\ fg_done s = false /\ oks l = []) \/
   (exists y id X eph mp rest, let a := al y eph in let b := be mp y eph id X in
      mpk = compress G mp /\ List.length id = 32%nat /\ fg_id s = Some id /\ fg_key s = Some (fg_skey P G a b) /\
      fg_macs s = Some (fg_mac0 P G a b, fg_mac1 P G a b) /\
      oks l = (id ++ compress G X ++ compress G eph, Some (fg_hello G cert y ++ fg_mac1 P G a b)) :: rest /\
      ((fg_step s = 3%nat /\ fg_done s = false /\ rest = []) \/ (fg_step s = 5%nat /\ fg_done s = true /\ rest = [(fg_mac0 P G a b, None)])))).
Lemma log_transcript_err : forall (l : log M) m e, log_transcript (l ++ [(m, Err e)]) = log_transcript l.
Proof. intros. rewrite log_transcript_app. cbn [log_transcript]. apply app_nil_r. Qed.
Lemma fgx_hist_I : forall r usk l s, hist M (fst (ik_new (FgIbkeC P G) r ssid mpk cert usk Initiator)) l s -> fgx_I l s.
Proof.
  intros r usk l s H. induction H as [|l s rr m s' o H IH E].
  { split; [unfold fg_fixed; cbn; auto|]. split; [reflexivity|]. left. repeat split; reflexivity. }
  cbn [M m_run ibke_machine FgIbkeC ik_run] in E. obi E. injection E as <- <-. rename E0 into E.
  destruct IH as [F [T IH]]. pose proof F as [F1 [F2 F3]]. unfold fg_run in E. rewrite F1, F2, F3, T in E.
  destruct IH as [[ST [D OK]]|[x [[ST [D [SK OK]]]|[ST _]]]]; rewrite ST in E; [| |discriminate E].
  - destruct m; cbn [List.length Nat.eqb assert_] in E; [|discriminate E].
    destruct (s_random G (fst rr)) as [x rx]. cbn beta iota zeta in E. injection E as <- <- <-.
    split; [unfold fg_fixed; cbn; auto|]. split; [apply fg_absorb_log|]. right. exists x. left.
    cbn [fg_step fg_done fg_eph_sk]. rewrite oks_ok, OK. auto 10.
  - rewrite SK in E. obi E. cbn [unwrap] in *. repeat match goal with X : Ret _ = Ret _ |- _ => injection X as <- end.
    repeat match goal with X : split_at _ _ = Ret _ |- _ => apply split_at_inv in X; destruct X as [-> ?] end.
    repeat match goal with X : decompress _ ?b = Ret _ |- _ => apply (decompress_inv G _ _ GL) in X end. subst.
    match goal with X : fg_derive _ _ ?u ?v = Ret _ |- _ => rewrite fg_derive_ok in X; injection X as <- <- <- end.
    match type of E with (if negb ?u then _ else _) = _ => destruct u eqn:Q end; cbn [negb] in E.
    2:{ injection E as <- <- <-. split; [unfold fg_fixed; cbn; auto|]. split; [cbn [fg_trans]; rewrite log_transcript_err; reflexivity|]. right. exists x. left.
        rewrite oks_err. cbn [fg_step fg_done fg_eph_sk]. auto 10. }
    apply beq_spec in Q. injection E as <- <- <-. split; [unfold fg_fixed; cbn; auto|]. split; [apply fg_absorb_log|]. right. exists x. right.
    cbn [fg_step fg_done fg_id fg_key]. split; [reflexivity|]. split; [reflexivity|].
    do 4 eexists. cbn zeta. refine (conj _ (conj _ (conj eq_refl (conj eq_refl _)))); [eassumption || reflexivity|eassumption|].
    rewrite oks_ok, OK, <- Q. reflexivity.
Qed.
Lemma fgx_hist_R : forall r usk l s, hist M (fst (ik_new (FgIbkeC P G) r ssid mpk cert usk Responder)) l s -> fgx_R l s.
Proof.
  intros r usk l s H. induction H as [|l s rr m s' o H IH E].
  { split; [unfold fg_fixed; cbn; auto|]. split; [reflexivity|]. left. repeat split; reflexivity. }
  cbn [M m_run ibke_machine FgIbkeC ik_run] in E. obi E. injection E as <- <-. rename E0 into E.
  destruct IH as [F [T IH]]. pose proof F as [F1 [F2 F3]]. unfold fg_run in E. rewrite F1, F2, F3, T in E.
  destruct IH as [[ST [D OK]]|[y [id [X [eph [mp [rest [EM [LI [HI [HK [MC [OK [[ST [D RE]]|[ST _]]]]]]]]]]]]]]]; rewrite ST in E; [| |discriminate E]; cbn zeta in *.
  - obi E.
    repeat match goal with X : split_at _ _ = Ret _ |- _ => apply split_at_inv in X; destruct X as [-> ?] end.
    repeat match goal with X : decompress _ ?b = Ret _ |- _ => apply (decompress_inv G _ _ GL) in X end. subst.
    match goal with X : fg_derive _ _ ?u ?v = Ret _ |- _ => rewrite fg_derive_ok in X; injection X as <- <- <- end.
    injection E as <- <- <-. split; [unfold fg_fixed; cbn; auto|]. split; [apply fg_absorb_log|]. right.
    do 6 eexists. cbn zeta. cbn [fg_step fg_done fg_id fg_key fg_macs].
    refine (conj _ (conj _ (conj eq_refl (conj eq_refl (conj eq_refl _))))); [eassumption || reflexivity|eassumption|].
    split; [rewrite oks_ok, OK; unfold fg_hello; rewrite <- !app_assoc; reflexivity|]. left. auto.
  - subst rest. rewrite MC in E. cbn [unwrap obind] in E. match type of E with (if negb ?u then _ else _) = _ => destruct u eqn:Q end; cbn [negb] in E.
    2:{ injection E as <- <- <-. split; [exact F|]. split; [rewrite log_transcript_err; exact T|]. right. exists y, id, X, eph, mp, []. cbn zeta. rewrite oks_err. auto 15. }
    apply beq_spec in Q. injection E as <- <- <-. split; [unfold fg_fixed; cbn; auto|]. split; [apply fg_absorb_log|]. right.
    exists y, id, X, eph, mp. eexists. cbn zeta. cbn [fg_step fg_done fg_id fg_key fg_macs].
    split; [exact EM|]. split; [exact LI|]. split; [exact HI|]. split; [exact HK|]. split; [reflexivity|].
    split; [rewrite oks_ok, OK; reflexivity|]. right. rewrite Q. auto.
Qed.
End Fg.
Lemma log_transcript_oks : forall M (l : log M), log_transcript l = List.concat (map (fun c => fst c ++ opt_bytes (snd c)) (oks l)).
Proof.
  intros M l. induction l as [|[m [o|e]] l IH]; cbn [log_transcript oks map List.concat fst snd]; [reflexivity| |exact IH].
  rewrite IH, <- app_assoc. reflexivity.
Qed.

(* ------------------------------------------------------------------ *)
(** ** Equal keys *)
Lemma final_binds : forall P (ssid ssid' T T' k k' : bytes), List.length ssid' = List.length ssid -> List.length k' = List.length k ->
  fg_final P ssid T k = fg_final P ssid' T' k' ->
  (ssid' = ssid /\ T' = T /\ k' = k) \/ extract_collide P (Some (str "fgibke-tr-hash")) (T ++ k) (T' ++ k') \/
  collide P (extract P (Some (str "fgibke-tr-hash")) (T ++ k)) (ssid ++ str "fgibke-final")
            (extract P (Some (str "fgibke-tr-hash")) (T' ++ k')) (ssid' ++ str "fgibke-final").
Proof.
  intros P ssid ssid' T T' k k' LS LK E. unfold fg_final in E.
  destruct (expand_same_or_collide _ _ _ _ _ E) as [[EA ES]|C]; [|right; right; exact C].
  destruct (extract_same_or_collide _ _ _ _ EA) as [EB|C]; [|right; left; exact C]. left.
  apply app_split in ES; [|symmetry; exact LS]. apply app_split_r in EB; [|symmetry; exact LK]. destruct ES as [-> _], EB as [-> ->]. auto.
Qed.
(** Two completed FG-IBKE-C sessions of opposite roles that output one key: same ssid, each
    outputs the identity of the other's certificate, and each received exactly what the other
    sent; or these two runs exhibit a collision of the key derivation. *)
Theorem fg_equal_keys_matched : forall P G, group_laws G -> forall ssid ssid' mpk mpk' cert cert' usk usk' r r' l l' s s' id id' key, let I := FgIbkeC P G in
  hist (ibke_machine I) (fst (ik_new I r ssid mpk cert usk Initiator)) l s -> ik_done I s = true ->
  hist (ibke_machine I) (fst (ik_new I r' ssid' mpk' cert' usk' Responder)) l' s' -> ik_done I s' = true ->
  List.length ssid' = List.length ssid -> List.length (fgc_id cert) = 32%nat -> List.length (fgc_id cert') = 32%nat ->
  ik_fin I s = Ret (id, key) -> ik_fin I s' = Ret (id', key) ->
  exists k k', fg_key s = Some k /\ fg_key s' = Some k' /\
    let t := Some (str "fgibke-tr-hash") in let f := str "fgibke-final" in
    let T := log_transcript l ++ k in let T' := log_transcript l' ++ k' in
    (ssid' = ssid /\ id = fgc_id cert' /\ id' = fgc_id cert /\ k' = k /\
     exists m0 m1 m2, oks l = [([], Some m0); (m1, Some m2)] /\ oks l' = [(m0, Some m1); (m2, None)]) \/
    extract_collide P t T T' \/ collide P (extract P t T) (ssid ++ f) (extract P t T') (ssid' ++ f).
Proof.
  intros P G GL ssid ssid' mpk mpk' cert cert' usk usk' r r' l l' s s' id id' key I H D H' D' LS LC LC' FN FN'. unfold I in *. clear I.
  apply (fgx_hist_I P G GL) in H. apply (fgx_hist_R P G GL) in H'. cbn [FgIbkeC ik_done ik_fin IST] in *.
  destruct H as [[F1 _] [T [[_ [D0 _]]|[x [[_ [D0 _]]|[_ [_ [idp [X [eph [mp [_ [LI [HI [HK OK]]]]]]]]]]]]]]]; try congruence.
  destruct H' as [[F1' _] [T' [[_ [D0 _]]|[y [idq [Y [ephq [mq [rest [_ [LI' [HI' [HK' [_ [OK' [[_ [D0 _]]|[_ [_ RE]]]]]]]]]]]]]]]]]]; try congruence.
  cbn zeta in *. subst rest. unfold fg_fin in FN, FN'. rewrite HK, HI, F1, T in FN. rewrite HK', HI', F1', T' in FN'. cbn [unwrap obind] in FN, FN'.
  assert (EI : idp = id) by congruence. assert (EQ : idq = id') by congruence. subst idp idq.
  rewrite HK, HK'. eexists. eexists. split; [reflexivity|]. split; [reflexivity|].
  match type of HK with _ = Some ?kk => set (k := kk) in * end. match type of HK' with _ = Some ?kk => set (k' := kk) in * end.
  assert (LK : List.length k' = List.length k) by (unfold k, k'; destruct (fg_mac_lengths P G (fg_alpha G x eph) (fg_beta P G mp x (fgc_xhat cert) eph id X)) as [_ [_ ->]]; apply fg_mac_lengths).
  assert (E : fg_final P ssid (log_transcript l) k = fg_final P ssid' (log_transcript l') k') by (unfold fg_final; congruence).
  destruct (final_binds P _ _ _ _ _ _ LS LK E) as [[ES [ET EK]]|[C|C]]; [left|right; left; exact C|right; right; exact C].
  clear - OK OK' ET ES EK LI LI' LC LC'.
  rewrite !log_transcript_oks, OK, OK' in ET. cbn [map List.concat fst snd opt_bytes app] in ET. rewrite !app_nil_r in ET.
  set (m1 := fg_mac1 P G (fg_alpha G x eph) _) in *. set (m0 := fg_mac0 P G (fg_alpha G x eph) _) in *.
  set (n1 := fg_mac1 P G (fg_alpha G y ephq) _) in *. set (n0 := fg_mac0 P G (fg_alpha G y ephq) _) in *.
  assert (L1 : List.length m1 = 32%nat) by apply fg_mac_lengths. assert (L0 : List.length m0 = 32%nat) by apply fg_mac_lengths.
  assert (K1 : List.length n1 = 32%nat) by apply fg_mac_lengths. assert (K0 : List.length n0 = 32%nat) by apply fg_mac_lengths.
  clearbody m0 m1 n0 n1. unfold fg_hello in *. rewrite <- !app_assoc in ET.
  apply app_split in ET; [|congruence]. destruct ET as [E1 ET].
  apply app_split in ET; [|rewrite !compress_length; reflexivity]. destruct ET as [E2 ET].
  apply app_split in ET; [|rewrite !compress_length; reflexivity]. destruct ET as [E3 ET].
  apply app_split in ET; [|congruence]. destruct ET as [E4 ET].
  apply app_split in ET; [|rewrite !compress_length; reflexivity]. destruct ET as [E5 ET].
  apply app_split in ET; [|rewrite !compress_length; reflexivity]. destruct ET as [E6 ET].
  apply app_split in ET; [|congruence]. destruct ET as [E7 E8].
  split; [exact ES|]. split; [congruence|]. split; [congruence|]. split; [exact EK|].
  exists (fgc_id cert ++ compress G (fgc_X cert) ++ compress G (g_base G x)), (id ++ compress G X ++ compress G eph ++ m1), m0.
  split; [exact OK|]. rewrite OK'. rewrite <- !app_assoc, <- E1, <- E2, <- E3, <- E4, <- E5, <- E6, <- E7, <- E8. reflexivity.
Qed.

(** Two completed ID-HMQV-C sessions of opposite roles that output one key. *)
Theorem hmqv_equal_keys_matched : forall P G, group_laws G -> forall ssid ssid' mpk mpk' cert cert' usk usk' r r' l l' s s' id id' key, let I := IdHmqvC P G in
  hist (ibke_machine I) (fst (ik_new I r ssid mpk cert usk Initiator)) l s -> ik_done I s = true ->
  hist (ibke_machine I) (fst (ik_new I r' ssid' mpk' cert' usk' Responder)) l' s' -> ik_done I s' = true ->
  List.length ssid' = List.length ssid -> ik_fin I s = Ret (id, key) -> ik_fin I s' = Ret (id', key) ->
  exists x eph upk y eph' upk',
    (exists mac1 certb mac0, oks l = [([], Some (compress G (g_base G x) ++ hm_cert_to_bytes G cert)); (compress G eph ++ mac1 ++ certb, Some mac0)]) /\
    (exists mac1 certb mac0, oks l' = [(compress G eph' ++ certb, Some (compress G (g_base G y) ++ mac1 ++ hm_cert_to_bytes G cert')); (mac0, None)]) /\
    let a := compress G (hm_point P G (hmc_id cert) usk x eph upk id) in
    let b := compress G (hm_point P G (hmc_id cert') usk' y eph' upk' id') in
    (ssid' = ssid /\ a = b) \/ collide P a (ssid ++ str "sess key") b (ssid' ++ str "sess key").
Proof.
  intros P G GL ssid ssid' mpk mpk' cert cert' usk usk' r r' l l' s s' id id' key I H D H' D' LS FN FN'. unfold I in *. clear I.
  apply (hmx_hist_I P G GL) in H. apply (hmx_hist_R P G GL) in H'. cbn [IdHmqvC ik_done ik_fin IST] in *.
  destruct H as [_ [[_ [D0 _]]|[x [[_ [D0 _]]|[_ [_ [eph [upk [idp [cb [OK [CT [HI HK]]]]]]]]]]]]]; try congruence.
  destruct H' as [_ [[_ [D0 _]]|[y [ephx [upkx [idx [cbx [restx [OKx [CTx [HIx [HKx [_ [[_ [D0 _]]|[_ [_ RE]]]]]]]]]]]]]]]]; try congruence.
  cbn zeta in *. subst restx. rewrite HI, HK in FN. rewrite HIx, HKx in FN'. cbn [unwrap obind] in FN, FN'.
  assert (EI : idp = id) by congruence. assert (EQ : idx = id') by congruence. subst idp idx.
  exists x, eph, upk, y, ephx, upkx. split; [do 3 eexists; exact OK|]. split; [do 3 eexists; exact OKx|].
  set (a := compress G (hm_point P G (hmc_id cert) usk x eph upk id)) in *.
  assert (E : expand P a (ssid ++ str "sess key") 32 = expand P (compress G (hm_point P G (hmc_id cert') usk' y ephx upkx id')) (ssid' ++ str "sess key") 32)
    by (unfold hm_skey in FN, FN'; fold a in FN; congruence).
  set (b := compress G (hm_point P G (hmc_id cert') usk' y ephx upkx id')) in *. clearbody a b. clear - E LS.
  destruct (expand_same_or_collide _ _ _ _ _ E) as [[EA ES]|C]; [left|right; exact C].
  apply app_split in ES; [|symmetry; exact LS]. destruct ES as [ES _]. auto.
Qed.
(** Two completed ID-SIG-DH sessions of opposite roles that output one key: same ssid, each
    received the ephemeral key the other sent, and they hashed the same four shared secrets. *)
Theorem sig_dh_equal_keys_matched : forall P ssid ssid' mpk mpk' cert cert' usk usk' r r' l l' s s' id id' key, let I := IdSigDh P in
  hist (ibke_machine I) (fst (ik_new I r ssid mpk cert usk Initiator)) l s -> ik_done I s = true ->
  hist (ibke_machine I) (fst (ik_new I r' ssid' mpk' cert' usk' Responder)) l' s' -> ik_done I s' = true ->
  List.length ssid' = List.length ssid -> ik_fin I s = Ret (id, key) -> ik_fin I s' = Ret (id', key) ->
  exists e eph dh t0 t1 e' eph' dh' t0' t1',
    In ([], Ok (Some (x_pub P e ++ t0))) l /\ In (eph ++ t1, Ok None) l /\ In (eph' ++ t0', Ok (Some (x_pub P e' ++ t1'))) l' /\
    let T := x_dh P (snd usk) dh ++ x_dh P e dh ++ x_dh P (snd usk) eph ++ x_dh P e eph in
    let T' := x_dh P (snd usk') dh' ++ x_dh P (snd usk') eph' ++ x_dh P e' dh' ++ x_dh P e' eph' in
    (ssid' = ssid /\ eph' = x_pub P e /\ eph = x_pub P e' /\ T' = T) \/ extract_collide P None T T' \/
    collide P (extract P None T) (ssid ++ x_pub P e ++ eph) (extract P None T') (ssid' ++ eph' ++ x_pub P e').
Proof.
  intros P ssid ssid' mpk mpk' cert cert' usk usk' r r' l l' s s' id id' key I H D H' D' LS FN FN'. unfold I in *. clear I.
  destruct (sig_dh_initiator_key P ssid mpk cert usk r l s H D) as [e [eph [sg [idp [pk [dh [cs [I0 [I1 [L1 [_ [_ [_ [_ F]]]]]]]]]]]]]].
  destruct (sig_dh_responder_key P ssid' mpk' cert' usk' r' l' s' H' D') as [e' [eph' [sg' [idq [pk' [dh' [cs' [J0 [K1 [_ [_ [_ [_ F']]]]]]]]]]]]].
  exists e, eph, dh. eexists. eexists. exists e', eph', dh'. eexists. eexists. unfold sd_msg in *.
  split; [exact I0|]. split; [exact I1|]. split; [exact J0|]. cbn zeta.
  rewrite F in FN. rewrite F' in FN'. clear F F' I0 I1 J0 H H' D D'.
  set (T := x_dh P (snd usk) dh ++ _) in *. set (T' := x_dh P (snd usk') dh' ++ _) in *. clearbody T T'.
  assert (E : expand P (extract P None T) (ssid ++ x_pub P e ++ eph) 32 = expand P (extract P None T') (ssid' ++ eph' ++ x_pub P e') 32) by congruence.
  destruct (expand_same_or_collide _ _ _ _ _ E) as [[EA ES]|C]; [|right; right; exact C].
  destruct (extract_same_or_collide _ _ _ _ EA) as [EB|C]; [left|right; left; exact C].
  apply app_split in ES; [|symmetry; exact LS]. destruct ES as [ES ER].
  apply app_split in ER; [|unfold x_pub; rewrite bytes_of_length; congruence]. destruct ER as [ER1 ER2]. auto.
Qed.

(* ------------------------------------------------------------------ *)
(** ** A wrong ssid in FG-IBKE-C *)
(** Two honest FG-IBKE-C parties given different ssids: nothing fails, both complete and output
    each other's identity, and their keys are one secret expanded with the two ssids. *)
Theorem fg_ssid_mismatch_undetected : forall P G, group_laws G -> forall rm mpk msk rm' idI idR certI certR uI uR ssidI ssidR r0 r1 rI rR, let I := FgIbkeC P G in
  gen_main I rm = (mpk, msk, rm') -> List.length idI = 32%nat -> List.length idR = 32%nat ->
  enrolled I msk idI certI uI -> enrolled I msk idR certR uR ->
  exists m0 m1 m2 A1 A2 B1 B2 r0' r1' prk,
    (forall os, ik_run I (fst (ik_new I rI ssidI mpk certI uI Initiator)) r0 os [] = Ret (A1, Ok (Some m0), r0')) /\
    (forall os, ik_run I (fst (ik_new I rR ssidR mpk certR uR Responder)) r1 os m0 = Ret (B1, Ok (Some m1), r1')) /\
    (forall r os, ik_run I A1 r os m1 = Ret (A2, Ok (Some m2), r)) /\ (forall r os, ik_run I B1 r os m2 = Ret (B2, Ok None, r)) /\
    ik_done I A2 = true /\ ik_done I B2 = true /\
    ik_fin I A2 = Ret (idR, expand P prk (ssidI ++ str "fgibke-final") 32) /\ ik_fin I B2 = Ret (idI, expand P prk (ssidR ++ str "fgibke-final") 32).
Proof.
  intros P G GL rm mpk msk rm' idI idR certI certR uI uR ssidI ssidR r0 r1 rI rR I GM LI LR EI ER. unfold I in *. clear I.
  destruct (fg_honest_steps P G GL rm mpk msk rm' idI idR certI certR ssidI ssidR r0 r1 uI uR GM LI LR EI ER)
    as [m0 [m1 [m2 [A1 [A2 [B1 [B2 [k [r0' [r1' [S0 [S1 [S2 [S3 [_ [_ [_ [_ [DA [_ [DB [FA [_ FB]]]]]]]]]]]]]]]]]]]]]]].
  exists m0, m1, m2, A1, A2, B1, B2, r0', r1', (extract P (Some (str "fgibke-tr-hash")) ((m0 ++ m1 ++ m2) ++ k)).
  cbn [FgIbkeC ik_run ik_new ik_done ik_fin]. unfold fg_new. cbn [fst]. auto 10.
Qed.
(** The keys can differ: toy primitives whose expand repeats the first byte of its info. *)
Definition ssid_prims : prims := {|
  p_hash256 := p_hash256 toy_prims; p_hash512 := p_hash512 toy_prims; p_hmac := p_hmac toy_prims;
  p_expand := fun k m i => hd 0 m;
  p_extract := p_extract toy_prims; p_chacha20 := p_chacha20 toy_prims; p_chacha12 := p_chacha12 toy_prims; p_deck := p_deck toy_prims;
  p_sig_pk := p_sig_pk toy_prims; p_sig_sk := p_sig_sk toy_prims; p_sign := p_sign toy_prims; p_verify := p_verify toy_prims;
  p_pk_valid := p_pk_valid toy_prims; p_x_pub := p_x_pub toy_prims; p_x_dh := p_x_dh toy_prims |}.
Theorem fg_ssid_mismatch_keys_differ : exists P G mpk certI certR ssidI ssidR (r : rng) A2 B2 lA lB idI idR kI kR, let I := FgIbkeC P G in
  group_laws G /\ idI <> idR /\ List.length ssidI = 32%nat /\ List.length ssidR = 32%nat /\
  hist (ibke_machine I) (fst (ik_new I r ssidI mpk certI tt Initiator)) lA A2 /\ hist (ibke_machine I) (fst (ik_new I r ssidR mpk certR tt Responder)) lB B2 /\
  ik_done I A2 = true /\ ik_done I B2 = true /\ ik_fin I A2 = Ret (idR, kI) /\ ik_fin I B2 = Ret (idI, kR) /\
  fgc_id certI = idI /\ fgc_id certR = idR /\ kI <> kR.
Proof.
  set (r := fun n : nat => Z.of_nat n). set (idI := repeat 0 32). set (idR := repeat 1 32). set (sI := repeat 2 32). set (sR := repeat 3 32).
  destruct (gen_main (FgIbkeC ssid_prims toy_group) r) as [[mpk msk] rm'] eqn:GM.
  destruct (fg_enrolled_exists ssid_prims toy_group msk idI) as [cI [uI EI]]. destruct (fg_enrolled_exists ssid_prims toy_group msk idR) as [cR [uR ER]].
  destruct (fg_ssid_mismatch_undetected ssid_prims toy_group toy_group_laws r mpk msk rm' idI idR cI cR uI uR sI sR r r r r GM eq_refl eq_refl EI ER)
    as [m0 [m1 [m2 [A1 [A2 [B1 [B2 [r0' [r1' [prk [S0 [S1 [S2 [S3 [DA [DB [FA FB]]]]]]]]]]]]]]]]].
  assert (CI : fgc_id cI = idI) by (destruct (fg_enrolled _ _ _ _ _ _ _ _ _ GM EI) as [_ [a ->]]; reflexivity).
  assert (CR : fgc_id cR = idR) by (destruct (fg_enrolled _ _ _ _ _ _ _ _ _ GM ER) as [_ [a ->]]; reflexivity).
  destruct uI, uR. exists ssid_prims, toy_group, mpk, cI, cR, sI, sR, r, A2, B2.
  exists (([] ++ [([], Ok (Some m0))]) ++ [(m1, Ok (Some m2))]), (([] ++ [(m0, Ok (Some m1))]) ++ [(m2, Ok None)]), idI, idR. do 2 eexists.
  cbv zeta. split; [exact toy_group_laws|]. split; [discriminate|]. split; [reflexivity|]. split; [reflexivity|].
  split; [|split].
  - apply (hist_run (ibke_machine (FgIbkeC ssid_prims toy_group)) _ _ A1 (r, r)); [eapply (hist_run (ibke_machine (FgIbkeC ssid_prims toy_group)) _ _ _ (r, r)); [apply hist_init|]|]; cbn [m_run ibke_machine fst snd]; rewrite ?S0, ?S2; reflexivity.
  - apply (hist_run (ibke_machine (FgIbkeC ssid_prims toy_group)) _ _ B1 (r, r)); [eapply (hist_run (ibke_machine (FgIbkeC ssid_prims toy_group)) _ _ _ (r, r)); [apply hist_init|]|]; cbn [m_run ibke_machine fst snd]; rewrite ?S1, ?S3; reflexivity.
  - split; [exact DA|]. split; [exact DB|]. split; [exact FA|]. split; [exact FB|]. split; [exact CI|]. split; [exact CR|].
    intro E. apply (f_equal (hd 0)) in E. revert E. clear. Local Transparent expand bytes_of draw. generalize (str "fgibke-final"). intro t. discriminate.
Qed.
Local Opaque expand bytes_of draw.

(* ------------------------------------------------------------------ *)
(** ** The hypotheses are met by honest runs *)
(** The calls each side makes in a run, from the answers in order: the party whose turn it is
    gets the last answer. *)
Fixpoint conv (turn who : role) (msg : bytes) (outs : list (option bytes)) : list (bytes * option bytes) :=
  match outs with
  | [] => []
  | o :: r => (if match turn, who with Initiator, Initiator | Responder, Responder => true | _, _ => false end then [(msg, o)] else []) ++ conv (flip turn) who (opt_bytes o) r
  end.
Definition as_log {M : machine} (c : list (bytes * option bytes)) : log M := map (fun x => (fst x, Ok (snd x))) c.
Lemma oks_as_log : forall M c, oks (@as_log M c) = c.
Proof. intros M c. induction c as [|[m o] c IH]; [reflexivity|]. cbn [as_log map fst snd oks]. f_equal. exact IH. Qed.
Lemma drive_logs : forall M (aI aR : m_st M) f turn tape sI sR msg lI lR,
  hist M aI lI sI -> hist M aR lR sR -> let r := drive M f turn tape sI sR msg in r_status r = Completed ->
  hist M aI (lI ++ as_log (conv turn Initiator msg (r_outs r))) (r_init r) /\ hist M aR (lR ++ as_log (conv turn Responder msg (r_outs r))) (r_resp r).
Proof.
  intros M aI aR f. induction f as [|f IH]; intros turn tape sI sR msg lI lR HI HR; [discriminate|]. cbn [drive].
  destruct (m_done M (sel turn sI sR)); [intros _; cbn [r_outs r_init r_resp conv as_log map]; rewrite !app_nil_r; auto|].
  destruct (m_run M (sel turn sI sR) (tape O) msg) as [[s' [o|e]]|] eqn:E; [|discriminate|discriminate].
  cbn zeta. cbn [r_status r_outs r_init r_resp]. intro C.
  destruct turn; cbn [sel flip] in *.
  - destruct (IH Responder (shift tape) s' sR (opt_bytes o) (lI ++ [(msg, Ok o)]) lR (hist_run M aI lI sI (tape O) msg s' (Ok o) HI E) HR C) as [A B].
    cbn [conv flip app as_log map fst snd]. rewrite <- app_assoc in A. split; [exact A|exact B].
  - destruct (IH Initiator (shift tape) sI s' (opt_bytes o) lI (lR ++ [(msg, Ok o)]) HI (hist_run M aR lR sR (tape O) msg s' (Ok o) HR E) C) as [A B].
    cbn [conv flip app as_log map fst snd]. rewrite <- app_assoc in B. split; [exact A|exact B].
Qed.
(** Honest agreement gives two completed histories with one key, and their exact logs. *)
Theorem agreement_gives_matched_histories : forall I n ok, honest_agreement I n ok ->
  forall rm mpk msk rm' idI idR certI certR uskI uskR ssid rI rR tape,
    gen_main I rm = (mpk, msk, rm') -> List.length idI = 32%nat -> List.length idR = 32%nat ->
    enrolled I msk idI certI uskI -> enrolled I msk idR certR uskR -> ok tape ->
  exists msgs lI sI lR sR k, List.length msgs = n /\
    hist (ibke_machine I) (fst (ik_new I rI ssid mpk certI uskI Initiator)) lI sI /\ ik_done I sI = true /\
    hist (ibke_machine I) (fst (ik_new I rR ssid mpk certR uskR Responder)) lR sR /\ ik_done I sR = true /\
    ik_fin I sI = Ret (idR, k) /\ ik_fin I sR = Ret (idI, k) /\
    lI = as_log (conv Initiator Initiator [] (map Some msgs ++ [None])) /\ lR = as_log (conv Initiator Responder [] (map Some msgs ++ [None])).
Proof.
  intros I n ok A rm mpk msk rm' idI idR certI certR uskI uskR ssid rI rR tape GM LI LR EI ER OK.
  destruct (A rm mpk msk rm' idI idR certI certR uskI uskR ssid rI rR tape GM LI LR EI ER OK) as [msgs [sI [sR [k [HR [LN [_ [DI [DR [FI [FR _]]]]]]]]]]].
  destruct (drive_logs (ibke_machine I) _ _ (n + 2) Initiator tape _ _ [] [] []
    (hist_init (ibke_machine I) (fst (ik_new I rI ssid mpk certI uskI Initiator))) (hist_init (ibke_machine I) (fst (ik_new I rR ssid mpk certR uskR Responder)))) as [HI HJ];
  unfold honest_run in HR; rewrite HR in *; [reflexivity|]. cbn [r_outs r_init r_resp app] in HI, HJ.
  exists msgs. do 2 eexists. do 2 eexists. exists k. split; [exact LN|]. split; [exact HI|]. split; [exact DI|]. split; [exact HJ|]. split; [exact DR|].
  split; [exact FI|]. split; [exact FR|]. auto.
Qed.
Example equal_keys_meet :
  (exists mpk cert usk l s l' s' id k, let I := IdSigDh toy_prims in
     hist (ibke_machine I) (fst (ik_new I (fun _ => 0) [7] mpk cert usk Initiator)) l s /\ ik_done I s = true /\
     hist (ibke_machine I) (fst (ik_new I (fun _ => 1) [7] mpk cert usk Responder)) l' s' /\ ik_done I s' = true /\
     ik_fin I s = Ret (id, k) /\ ik_fin I s' = Ret (id, k) /\
     exists m0 m1, oks l = [([], Some m0); (m1, None)] /\ sig_dh_signs Responder [7] (sd_cert_to_bytes cert) l' ([1] ++ [7] ++ firstn 32 m1)) /\
  (exists mpk cert usk l s l' s' id k, let I := IdHmqvC toy_prims toy_group in
     hist (ibke_machine I) (fst (ik_new I (fun _ => 0) [7] mpk cert usk Initiator)) l s /\ ik_done I s = true /\
     hist (ibke_machine I) (fst (ik_new I (fun _ => 1) [7] mpk cert usk Responder)) l' s' /\ ik_done I s' = true /\
     ik_fin I s = Ret (id, k) /\ ik_fin I s' = Ret (id, k) /\
     exists m0 m1 m2, oks l = [([], Some m0); (m1, Some m2)] /\ oks l' = [(m0, Some m1); (m2, None)]) /\
  (exists mpk cert usk l s l' s' id k, let I := FgIbkeC toy_prims toy_group in
     hist (ibke_machine I) (fst (ik_new I (fun _ => 0) [7] mpk cert usk Initiator)) l s /\ ik_done I s = true /\
     hist (ibke_machine I) (fst (ik_new I (fun _ => 1) [7] mpk cert usk Responder)) l' s' /\ ik_done I s' = true /\
     List.length (fgc_id cert) = 32%nat /\ ik_fin I s = Ret (id, k) /\ ik_fin I s' = Ret (id, k)).
Proof.
  assert (ID : List.length (repeat 1 32) = 32%nat) by reflexivity.
  split; [|split].
  - destruct (gen_main (IdSigDh toy_prims) (fun _ => 0)) as [[mpk msk] r'] eqn:GM.
    destruct (gen_user (IdSigDh toy_prims) (fun _ => 0)) as [[upk usk] r1] eqn:GU.
    destruct (ik_extract (IdSigDh toy_prims) (fun _ => 0) msk (repeat 1 32) upk) as [cert r2] eqn:EX.
    assert (E : enrolled (IdSigDh toy_prims) msk (repeat 1 32) cert usk) by (do 5 eexists; split; eassumption).
    destruct (agreement_gives_matched_histories _ _ _ (sig_dh_agreement toy_prims (toy_sig_correct _) toy_dh_commutes)
      _ _ _ _ _ _ _ _ _ _ [7] (fun _ => 0) (fun _ => 1) (fun _ => (fun _ => 0, fun _ => 0)) GM ID ID E E Logic.I) as [ms [lI [sI [lR [sR [k [LN [H [D [H' [D' [F [F' [OK OK']]]]]]]]]]]]]].
    destruct ms as [|m0 [|m1 [|m2 ms]]]; try discriminate LN. cbn [map app conv flip opt_bytes] in OK, OK'.
    apply (f_equal oks) in OK. apply (f_equal oks) in OK'. rewrite oks_as_log in OK, OK'.
    exists mpk, cert, usk, lI, sI, lR, sR, (repeat 1 32), k. cbv zeta. split; [exact H|]. split; [exact D|]. split; [exact H'|]. split; [exact D'|]. split; [exact F|]. split; [exact F'|].
    exists m0, m1. split; [exact OK|].
    pose proof (sdx_hist_R _ _ _ _ _ _ _ _ H') as X. cbn [IdSigDh ik_done IST] in D'.
    destruct X as [_ [[_ [D0 _]]|[_ [_ [e [eph [sg [id [pk [dh [cs [OKx _]]]]]]]]]]]]; [congruence|]. unfold sd_msg in OKx.
    assert (EM : Some m1 = Some (x_pub toy_prims e ++ sign toy_prims Ed25519 (fst usk) ([1] ++ [7] ++ x_pub toy_prims e) ++ sd_cert_to_bytes cert)) by (unfold sd_cert_to_bytes; congruence).
    set (sg1 := sign toy_prims Ed25519 (fst usk) ([1] ++ [7] ++ x_pub toy_prims e)) in *. clearbody sg1.
    exists m0, (x_pub toy_prims e), sg1, []. split; [rewrite OK', EM; reflexivity|].
    assert (LX : List.length (x_pub toy_prims e) = 32%nat) by (unfold x_pub; apply bytes_of_length). split; [exact LX|].
    injection EM as ->. rewrite firstn_app, LX, Nat.sub_diag, firstn_O, app_nil_r, <- LX, firstn_all. reflexivity.
  - destruct (gen_main (IdHmqvC toy_prims toy_group) (fun _ => 0)) as [[mpk msk] r'] eqn:GM.
    destruct (hm_enrolled_exists toy_prims toy_group msk (repeat 1 32)) as [cert [usk E]].
    destruct (agreement_gives_matched_histories _ _ _ (hmqv_agreement toy_prims toy_group (toy_sig_correct _) toy_group_laws)
      _ _ _ _ _ _ _ _ _ _ [7] (fun _ => 0) (fun _ => 1) (fun _ => (fun _ => 0, fun _ => 0)) GM ID ID E E Logic.I) as [ms [lI [sI [lR [sR [k [LN [H [D [H' [D' [F [F' [OK OK']]]]]]]]]]]]]].
    destruct ms as [|m0 [|m1 [|m2 [|m3 ms]]]]; try discriminate LN. cbn [map app conv flip opt_bytes] in OK, OK'.
    apply (f_equal oks) in OK. apply (f_equal oks) in OK'. rewrite oks_as_log in OK, OK'.
    exists mpk, cert, usk, lI, sI, lR, sR, (repeat 1 32), k. cbv zeta. split; [exact H|]. split; [exact D|]. split; [exact H'|]. split; [exact D'|]. split; [exact F|]. split; [exact F'|].
    exists m0, m1, m2. auto.
  - destruct (gen_main (FgIbkeC toy_prims toy_group) (fun _ => 0)) as [[mpk msk] r'] eqn:GM.
    destruct (fg_enrolled_exists toy_prims toy_group msk (repeat 1 32)) as [cert [usk E]].
    destruct (agreement_gives_matched_histories _ _ _ (fg_ibke_agreement toy_prims toy_group toy_group_laws)
      _ _ _ _ _ _ _ _ _ _ [7] (fun _ => 0) (fun _ => 1) (fun _ => (fun _ => 0, fun _ => 0)) GM ID ID E E Logic.I) as [ms [lI [sI [lR [sR [k [LN [H [D [H' [D' [F [F' [OK OK']]]]]]]]]]]]]].
    exists mpk, cert, usk, lI, sI, lR, sR, (repeat 1 32), k. cbv zeta. split; [exact H|]. split; [exact D|]. split; [exact H'|]. split; [exact D'|].
    split; [destruct (fg_enrolled _ _ _ _ _ _ _ _ _ GM E) as [_ [a ->]]; reflexivity|]. split; [exact F|exact F'].
Qed.

Local Transparent hmac.
Lemma auth_encrypt_bytes : forall P r k m, is_bytes m -> is_bytes (fst (auth_encrypt P r k m)).
Proof.
  intros P r k m H. unfold auth_encrypt. pose proof (draw_bytes NONCELEN r) as B. destruct (draw NONCELEN r) as [n r1]. cbn [fst] in *.
  apply is_bytes_app. split; [apply is_bytes_app; split; [|exact B]|unfold hmac; apply bytes_of_bytes].
  unfold stream_xor. apply xor_bytes_bytes; [exact H|apply bytes_of_bytes].
Qed.
(** In an honest ID-SIGMA-R run each side's log signs the string the other verified, and all
    messages are byte strings: the hypotheses of the matching theorems are met. *)
Theorem sigma_match_meets : forall ty P h, sig_correct P ty ->
  forall rm (mpk msk : tagged) rm' idI idR (certI certR : sm_cert) (uskI uskR : tagged) ssid rI rR (tape : nat -> rng * rng), let I := IdSigmaR ty P h in
    gen_main I rm = (mpk, msk, rm') -> List.length idI = 32%nat -> List.length idR = 32%nat -> is_bytes idI ->
    enrolled I msk idI certI uskI -> enrolled I msk idR certR uskR -> kem_ok h (snd (tape 0%nat)) (snd (tape 1%nat)) ->
  fst mpk = ty /\ exists lI sI lR sR,
    hist (ibke_machine I) (fst (ik_new I rI ssid mpk certI uskI Initiator)) lI sI /\ ik_done I sI = true /\
    hist (ibke_machine I) (fst (ik_new I rR ssid mpk certR uskR Responder)) lR sR /\ ik_done I sR = true /\ byte_log lR /\
    exists nA pk nB ct,
      (exists m3 m4, oks lI = [([], Some (nA ++ pk)); (nB ++ ct, Some m3); (m4, None)]) /\
    sigma_signs Responder ssid (sm_cert_to_bytes certR) lR ([1] ++ nA ++ ssid ++ ct ++ pk ++ sm_cert_to_bytes certR) /\
    sigma_signs Initiator ssid (sm_cert_to_bytes certI) lI ([0] ++ nB ++ ssid ++ pk ++ ct ++ sm_cert_to_bytes certI).
Proof.
  intros ty P h SC rm mpk msk rm' idI idR certI certR uskI uskR ssid rI rR tape I GM LI LR BI EI ER KO. unfold I in *. clear I.
  destruct (sm_enrolled ty P h rm mpk msk rm' idI certI uskI GM LI EI) as [TM _]. split; [exact TM|].
  assert (BC : is_bytes (sm_cert_to_bytes certI)).
  { destruct EI as [ru [upk [ru' [re [re' [GU EX]]]]]]. cbn [IdSigmaR gen_user ik_extract] in *. unfold sm_gen in GU. unfold sm_extract in EX.
    destruct (sig_keygen P ty ru) as [[up us] r2] eqn:KU. injection GU as <- _ _. injection EX as <- _. unfold sm_cert_to_bytes. cbn [smc_id smc_upk smc_sig fst snd].
    apply is_bytes_app. split; [exact BI|]. apply is_bytes_app. split; [|unfold t_sign, sign; cbn [snd]; apply bytes_of_bytes].
    unfold sig_keygen in KU. destruct (draw 32 ru) as [c rr]. injection KU as <- _ _. apply bytes_of_bytes. }
  destruct (agreement_gives_matched_histories _ _ _ (sigma_agreement ty P h SC) _ _ _ _ _ _ _ _ _ _ ssid rI rR tape GM LI LR EI ER KO)
    as [ms [lI [sI [lR [sR [k [LN [H [D [H' [D' [F [F' [OK OK']]]]]]]]]]]]]].
  destruct ms as [|m0 [|m1 [|m2 [|m3 [|m4 ms]]]]]; try discriminate LN. cbn [map app conv flip opt_bytes] in OK, OK'.
  pose proof (f_equal oks OK) as OI. pose proof (f_equal oks OK') as OR. rewrite oks_as_log in OI, OR.
  exists lI, sI, lR, sR. split; [exact H|]. split; [exact D|]. split; [exact H'|]. split; [exact D'|].
  subst ty.
  pose proof (smx_hist P h ssid mpk certI uskI _ Initiator rI lI sI eq_refl H) as X.
  cbn [IdSigmaR ik_done IST] in D, D'.
  destruct X as [_ [[_ [D0 _]]|[os0 [kpk [ksk [ro [KG [SK [[_ [D0 _]]|[nB [ct [r1 [rest [LB [LC [KW [OKx [[_ [D0 _]]|[_ [_ [m [id [RE [ID AU]]]]]]]]]]]]]]]]]]]]]]]]; try congruence.
  cbn zeta in *. subst rest. rewrite OKx in OI.
  assert (E0 : m0 = fst (draw 32 rI) ++ pk_to_bytes kpk) by congruence. assert (E1 : m1 = nB ++ ct) by congruence.
  assert (E2 : m2 = sm_flight3 P ssid certI uskI r1 (decapsulate_ind_cpa LightSaber ct ksk) nB ct kpk) by congruence.
  split.
  { intros q o IN. rewrite OK' in IN. cbn [as_log map fst snd In] in IN. destruct IN as [IN|[IN|[]]]; injection IN as <- _.
    - rewrite E0. apply is_bytes_app. split; [apply draw_bytes|]. apply (kem_key_bytes _ _ _ _ _ KG).
    - rewrite E2. unfold sm_flight3. apply auth_encrypt_bytes. apply is_bytes_app. split; [unfold t_sign, sign; cbn [snd]; apply bytes_of_bytes|].
      apply is_bytes_app. split; [unfold hmac; apply bytes_of_bytes|exact BC]. }
  pose proof (smx_hist P h ssid mpk certR uskR _ Responder rR lR sR eq_refl H') as X.
  destruct X as [_ [[_ [D0 _]]|[os1 [kpk' [nA [pkb [ss [ct' [ro' [LA [PKB [EN [KW' [[_ [D0 _]]|[_ [_ [m' [id' [r1' [OK2 [ID' AU']]]]]]]]]]]]]]]]]]]]]; try congruence.
  assert (J0 : m0 = nA ++ pkb) by congruence. assert (J1 : m1 = fst (draw 32 rR) ++ ct') by congruence.
  exists nA, pkb, (fst (draw 32 rR)), ct'.
  assert (LD : List.length (fst (draw 32 rR)) = 32%nat) by apply draw32.
  split; [|split].
  - do 2 eexists. rewrite OKx, <- E0, <- E1, J0, J1. reflexivity.
  - exists nA, pkb, (fst (draw 32 rR)), ct'. do 3 eexists. split; [exact OK2|]. auto.
  - exists nA, pkb, (fst (draw 32 rR)), ct'. do 2 eexists. split; [rewrite OKx, <- E0, <- E1, J0, J1; reflexivity|]. auto.
Qed.
