(** * PropsMatch: matching conversations under active attack (C67).

    A completed session verified one signature on one string.  Whichever session (of anyone,
    under any main key, after any history of calls) signed that string is its partner: opposite
    role, same ssid, same KEM key and ciphertext, and so the same session key.  So either the
    partner exists or the signature is a forgery.  No assumption on the signature scheme. *)
From Coq Require Import ZArith List Lia Bool String.
From Verif Require Import Base SaberPoly SaberKem SaberSpec SaberFacts SaberVec PropsSaber Crypto Symmetric PropsSym Driver Pakes PropsPake Ibkes IbkeSpec
  PropsSigDh PropsSigma IbkeToy PropsPanic.
Import ListNotations.
Open Scope Z_scope.
Local Opaque bytes_of draw INDCPA_PUBLICKEYBYTES BYTES_CCA_DEC.
Local Opaque indcpa_keypair indcpa_enc indcpa_dec decapsulate_ind_cpa indcpa_pk_from_bytes pk_to_bytes encapsulate_ind_cpa keygen_ind_cpa.

(* ------------------------------------------------------------------ *)
(** ** Specification *)
(** The successful calls of a log: what came in and what went out. *)
Fixpoint oks {M : machine} (l : log M) : list (bytes * option bytes) :=
  match l with
  | [] => []
  | (m, Ok o) :: r => (m, o) :: oks r
  | (_, Err _) :: r => oks r
  end.
(** The string an ID-SIGMA-R session has signed, read off its log: the initiator after its
    second successful call, over the responder's nonce; the responder after its second one, over
    the initiator's nonce. *)
Definition sigma_signs {M : machine} (rl : role) (ssid cert : bytes) (l : log M) (T : bytes) : Prop :=
  match rl with
  | Initiator => exists nA pk nB ct enc rest,
      oks l = ([], Some (nA ++ pk)) :: (nB ++ ct, Some enc) :: rest /\
      List.length nA = 32%nat /\ List.length nB = 32%nat /\ T = [0] ++ nB ++ ssid ++ pk ++ ct ++ cert
  | Responder => exists nA pk nB ct m enc rest,
      oks l = (nA ++ pk, Some (nB ++ ct)) :: (m, Some enc) :: rest /\
      List.length nA = 32%nat /\ List.length nB = 32%nat /\ T = [1] ++ nA ++ ssid ++ ct ++ pk ++ cert
  end.
(** The messages given to a session are strings of bytes, as the Rust type says. *)
Definition byte_log {M : machine} (l : log M) : Prop := forall m o, In (m, o) l -> is_bytes m.

(* ------------------------------------------------------------------ *)
(** ** The exact log of an ID-SIGMA-R session *)
Lemma oks_app : forall M (a b : log M), oks (a ++ b) = oks a ++ oks b.
Proof.
  intros M a b. induction a as [|[m [o|e]] a IH]; cbn [app oks]; [reflexivity| |exact IH]. rewrite IH. reflexivity.
Qed.
Lemma oks_ok : forall M (l : log M) m o, oks (l ++ [(m, Ok o)]) = oks l ++ [(m, o)].
Proof. intros. rewrite oks_app. reflexivity. Qed.
Lemma oks_err : forall M (l : log M) m e, oks (l ++ [(m, Err e)]) = oks l.
Proof. intros. rewrite oks_app. cbn [oks]. apply app_nil_r. Qed.
Lemma oks_in : forall M (l : log M) m o, In (m, o) (oks l) -> In (m, Ok o) l.
Proof.
  intros M l m o. induction l as [|[m1 [o1|e1]] l IH]; cbn [oks]; [intros []| |intro H; right; apply IH, H].
  intros [E|H]; [injection E as -> ->; left; reflexivity|right; apply IH, H].
Qed.

Section Exact.
Variables (P : prims) (h : saber_prims) (ssid : bytes) (mpk : tagged) (cert : sm_cert) (usk : tagged) (n : bytes).
Let IM := ibke_machine (IdSigmaR (fst mpk) P h).
Let certb := sm_cert_to_bytes cert.
Let fixed := sm_fixed ssid mpk cert usk.
(** The third and fourth message: signature, MAC of the own id and certificate, encrypted. *)
Definition sm_flight3 (r1 : rng) (ss nB ct : bytes) (kpk : pk_cpa) : bytes :=
  fst (auth_encrypt P r1 (sm_ea P ss) (snd (t_sign P usk ([0] ++ nB ++ ssid ++ pk_to_bytes kpk ++ ct ++ certb))
    ++ hmac P (sm_mk P ss) ([0] ++ smc_id cert) ++ certb)).
Definition sm_flight4 (r1 : rng) (ss nA ct : bytes) (kpk : pk_cpa) : bytes :=
  fst (auth_encrypt P r1 (sm_eb P ss) (snd (t_sign P usk ([1] ++ nA ++ ssid ++ ct ++ pk_to_bytes kpk ++ certb))
    ++ hmac P (sm_mk P ss) ([1] ++ smc_id cert) ++ certb)).
Definition smx_I (l : log IM) (s : sigma) : Prop :=
  fixed s /\
  ((sm_step s = 0%nat /\ sm_done s = false /\ fst (sm_nonces s) = Some n /\ oks l = []) \/
   (exists os kpk ksk ro, keygen_ind_cpa h LightSaber os = (kpk, ksk, ro) /\ sm_ksk s = Some ksk /\
      ((sm_step s = 2%nat /\ sm_done s = false /\ sm_kpk s = Some kpk /\ fst (sm_nonces s) = Some n /\
        oks l = [([], Some (n ++ pk_to_bytes kpk))]) \/
       (exists nB ct r1 rest, List.length nB = 32%nat /\ List.length ct = BYTES_CCA_DEC LightSaber /\
          let ss := decapsulate_ind_cpa LightSaber ct ksk in
          sm_known P kpk n nB ct ss s /\
          oks l = ([], Some (n ++ pk_to_bytes kpk)) :: (nB ++ ct, Some (sm_flight3 r1 ss nB ct kpk)) :: rest /\
          ((sm_step s = 4%nat /\ sm_done s = false /\ rest = []) \/
           (sm_step s = 6%nat /\ sm_done s = true /\ exists m id, rest = [(m, None)] /\ sm_id s = Some id /\
              sm_authentic P mpk (sm_eb P ss) (sm_mk P ss) ([1] ++ n ++ ssid ++ ct ++ pk_to_bytes kpk) 1 m id)))))).
Definition smx_R (l : log IM) (s : sigma) : Prop :=
  fixed s /\
  ((sm_step s = 1%nat /\ sm_done s = false /\ snd (sm_nonces s) = Some n /\ oks l = []) \/
   (exists os kpk nA pkb ss ct ro, List.length nA = 32%nat /\ indcpa_pk_from_bytes LightSaber pkb = Ret kpk /\
      encapsulate_ind_cpa h LightSaber os kpk = (ss, ct, ro) /\ sm_known P kpk nA n ct ss s /\
      ((sm_step s = 3%nat /\ sm_done s = false /\ oks l = [(nA ++ pkb, Some (n ++ ct))]) \/
       (sm_step s = 5%nat /\ sm_done s = true /\ exists m id r1,
          oks l = [(nA ++ pkb, Some (n ++ ct)); (m, Some (sm_flight4 r1 ss nA ct kpk))] /\ sm_id s = Some id /\
          sm_authentic P mpk (sm_ea P ss) (sm_mk P ss) ([0] ++ n ++ ssid ++ pk_to_bytes kpk ++ ct) 0 m id)))).
Definition smx (rl : role) := match rl with Initiator => smx_I | Responder => smx_R end.

Lemma smx_step : forall rl l s r os m s' o r', smx rl l s -> sm_run P h s r os m = Ret (s', o, r') -> smx rl (l ++ [(m, o)]) s'.
Proof.
  intros rl l s r os m s' o r' H E. unfold sm_run in E.
  destruct rl; cbn [smx] in *.
  - destruct H as [F H]. pose proof F as [F1 [F2 [F3 F4]]]. rewrite F1, F2, F3, F4 in E.
    destruct H as [[ST [D [NN OK]]]|[os0 [kpk [ksk [ro [KG [SK [[ST [D [PK [NN OK]]]]|[nB [ct [r1 [rest [LB [LC [KW [OK [[ST [D RE]]|[ST [D _]]]]]]]]]]]]]]]]]]]; rewrite ST in E.
    + rewrite NN in E. obi E. unw. injection E as <- <- <-.
      split; [unfold fixed, sm_fixed; cbn; auto|]. right. destruct m; [|discriminate].
      do 4 eexists. split; [eassumption|]. cbn [sm_ksk]. split; [reflexivity|]. left. cbn [sm_step sm_done sm_kpk sm_nonces sm_key].
      rewrite oks_ok, OK. repeat split; auto; lia.
    + obi E.
      match goal with X : split_at _ m = Ret _ |- _ => apply split_at_inv in X; destruct X as [-> LNB] end.
      match goal with X : (List.length _ =? BYTES_CCA_DEC _)%nat = true |- _ => apply Nat.eqb_eq in X; rename X into LC end.
      match type of E with match ?c with _ => _ end = _ => destruct c as [ct|] eqn:EC end.
      2:{ injection E as <- <- <-. split; [exact F|]. right. exists os0, kpk, ksk, ro. split; [exact KG|]. split; [exact SK|]. left. rewrite oks_err. auto. }
      rewrite SK, PK in E. obi E. unw.
      match goal with X : ciphertext_from_bytes _ _ = Ret _ |- _ => apply ct_from_inv in X; subst ct end.
      match goal with X : sm_keys _ _ = Ret _ |- _ => apply sm_keys_inv in X; injection X as -> -> -> -> end.
      match goal with X : auth_encrypt _ _ _ _ = _ |- _ => apply (f_equal fst) in X; cbn [fst] in X; rename X into EN end.
      injection E as <- <- <-.
      split; [unfold fixed, sm_fixed; cbn; auto|]. right. exists os0, kpk, ksk, ro. cbn [sm_ksk].
      split; [exact KG|]. split; [reflexivity|]. right.
      do 4 eexists. split; [exact LNB|]. split; [exact LC|]. cbn zeta. unfold sm_known. cbn [sm_kpk sm_nonces sm_ct sm_mac sm_enc sm_key sm_step sm_done].
      rewrite NN. split; [repeat split; auto|]. rewrite oks_ok, OK. cbn [app]. rewrite <- EN. split; [reflexivity|]. left. split; [lia|]. split; [exact D|reflexivity].
    + cbn zeta in KW, OK. pose proof KW as [K1 [K2 [K3 [K4 [K5 K6]]]]]. set (ss := decapsulate_ind_cpa LightSaber ct ksk) in *. subst rest.
      rewrite K1, K2, K3, K4, K5 in E. cbn [unwrap obind fst snd] in E.
      assert (SAME : forall s'', fixed s'' -> sm_ksk s'' = Some ksk -> sm_known P kpk n nB ct ss s'' -> sm_step s'' = 4%nat -> sm_done s'' = false ->
                forall e, smx_I (l ++ [(m, Err e)]) s'').
      { intros s'' F' SK' KW' ST' D' e. split; [exact F'|]. right. exists os0, kpk, ksk, ro. split; [exact KG|]. split; [exact SK'|].
        right. exists nB, ct, r1, []. split; [exact LB|]. split; [exact LC|]. cbn zeta. split; [exact KW'|]. rewrite oks_err. split; [exact OK|]. left. auto. }
      assert (SAME' : forall id e, smx_I (l ++ [(m, Err e)]) (sm_set_id s id)) by (intros id e; apply SAME; auto).
      obi E. match type of E with match ?u with _ => _ end = _ => destruct u as [pt|ee] end.
      2:{ injection E as <- <- <-. apply SAME; auto. }
      obi E. match type of E with match ?u with _ => _ end = _ => destruct u as [c|ee] end.
      2:{ injection E as <- <- <-. apply SAME; auto. }
      obi E. match type of E with (if negb ?u then _ else _) = _ => destruct u end; cbn [negb] in E.
      2:{ injection E as <- <- <-. apply SAME'. }
      obi E. match type of E with (if negb ?u then _ else _) = _ => destruct u end; cbn [negb] in E.
      2:{ injection E as <- <- <-. apply SAME'. }
      match type of E with (if negb ?v then _ else _) = _ => destruct v eqn:B end; cbn [negb] in E.
      2:{ injection E as <- <- <-. apply SAME'. }
      injection E as <- <- <-.
      split; [unfold fixed, sm_fixed; cbn; auto|]. right. exists os0, kpk, ksk, ro. cbn [sm_ksk].
      split; [exact KG|]. split; [exact SK|]. right.
      exists nB, ct, r1, [(m, None)]. split; [exact LB|]. split; [exact LC|]. cbn zeta. fold ss. split; [unfold sm_known; cbn; auto 10|].
      rewrite oks_ok, OK. split; [reflexivity|].
      right. cbn [sm_finish sm_set_id sm_step sm_done sm_id]. split; [lia|]. split; [reflexivity|]. exists m, (smc_id c). split; [reflexivity|]. split; [reflexivity|].
      subst. rewrite sm_trans_b in *. eapply sm_auth_of; eassumption.
    + discriminate E.
  - destruct H as [F H]. pose proof F as [F1 [F2 [F3 F4]]]. rewrite F1, F2, F3, F4 in E.
    destruct H as [[ST [D [NN OK]]]|[os0 [kpk [nA [pkb [ss [ct [ro [LA [PKB [EN [KW [[ST [D OK]]|[ST [D _]]]]]]]]]]]]]]]; rewrite ST in E.
    + rewrite NN in E. obi E. unw.
      match goal with X : split_at _ m = Ret _ |- _ => apply split_at_inv in X; destruct X as [-> LNB] end.
      match goal with X : sm_keys _ _ = Ret _ |- _ => apply sm_keys_inv in X; injection X as -> -> -> -> end.
      injection E as <- <- <-.
      split; [unfold fixed, sm_fixed; cbn; auto|]. right. do 7 eexists. split; [exact LNB|]. split; [eassumption|]. split; [eassumption|].
      unfold sm_known. cbn [sm_kpk sm_nonces sm_ct sm_mac sm_enc sm_key sm_step sm_done]. split; [repeat split; auto; rewrite NN; reflexivity|].
      left. rewrite oks_ok, OK. split; [lia|]. split; [exact D|reflexivity].
    + pose proof KW as [K1 [K2 [K3 [K4 [K5 K6]]]]].
      rewrite K1, K2, K3, K4, K5 in E. cbn [unwrap obind fst snd] in E.
      assert (SAME : forall s'', fixed s'' -> sm_known P kpk nA n ct ss s'' -> sm_step s'' = 3%nat -> sm_done s'' = false ->
                forall e, smx_R (l ++ [(m, Err e)]) s'').
      { intros s'' F' KW' ST' D' e. split; [exact F'|]. right. exists os0, kpk, nA, pkb, ss, ct, ro. split; [exact LA|]. split; [exact PKB|]. split; [exact EN|].
        split; [exact KW'|]. left. rewrite oks_err. auto. }
      assert (SAME' : forall id e, smx_R (l ++ [(m, Err e)]) (sm_set_id s id)) by (intros id e; apply SAME; auto).
      obi E. match type of E with match ?u with _ => _ end = _ => destruct u as [pt|ee] end.
      2:{ injection E as <- <- <-. apply SAME; auto. }
      obi E. match type of E with match ?u with _ => _ end = _ => destruct u as [c|ee] end.
      2:{ injection E as <- <- <-. apply SAME; auto. }
      obi E. match type of E with (if negb ?u then _ else _) = _ => destruct u end; cbn [negb] in E.
      2:{ injection E as <- <- <-. apply SAME'. }
      obi E. match type of E with (if negb ?u then _ else _) = _ => destruct u end; cbn [negb] in E.
      2:{ injection E as <- <- <-. apply SAME'. }
      match type of E with (if negb ?v then _ else _) = _ => destruct v eqn:B end; cbn [negb] in E.
      2:{ injection E as <- <- <-. apply SAME'. }
      obi E.
      match goal with X : auth_encrypt _ _ _ _ = _ |- _ => apply (f_equal fst) in X; cbn [fst] in X; rename X into AE end.
      injection E as <- <- <-.
      split; [unfold fixed, sm_fixed; cbn; auto|]. right. exists os0, kpk, nA, pkb, ss, ct, ro. split; [exact LA|]. split; [exact PKB|]. split; [exact EN|].
      split; [unfold sm_known; cbn; auto 10|].
      right. cbn [sm_finish sm_set_id sm_step sm_done sm_id]. split; [lia|]. split; [reflexivity|]. exists m, (smc_id c). eexists. split; [rewrite oks_ok, OK, <- AE; reflexivity|]. split; [reflexivity|].
      subst. rewrite sm_trans_a in *. eapply sm_auth_of; eassumption.
    + discriminate E.
Qed.
Lemma smx_hist : forall rl r l s, n = fst (draw 32 r) ->
  hist IM (fst (ik_new (IdSigmaR (fst mpk) P h) r ssid mpk cert usk rl)) l s -> smx rl l s.
Proof.
  intros rl r l s N H. induction H as [|l s rr m s' o H IH E].
  - cbn [IdSigmaR ik_new]. unfold sm_new. destruct (draw 32 r) as [nonce r1] eqn:DR. cbn [fst].
    assert (N' : n = nonce) by (rewrite N; reflexivity).
    destruct rl; (split; [unfold fixed, sm_fixed; cbn; auto|]); left; cbn; rewrite N'; auto.
  - unfold IM in E. cbn [m_run ibke_machine IdSigmaR ik_run] in E. obi E. injection E as <- <-.
    eapply smx_step; eassumption.
Qed.
End Exact.

(* ------------------------------------------------------------------ *)
(** ** What is signed is sent *)
Lemma app_split : forall (a b c d : bytes), a ++ b = c ++ d -> List.length a = List.length c -> a = c /\ b = d.
Proof.
  induction a as [|x a IH]; intros b [|y c] d E L; try discriminate L; [split; [reflexivity|exact E]|].
  cbn [app] in E. injection E as -> E. injection L as L. destruct (IH b c d E L) as [-> ->]. auto.
Qed.
Lemma light_pk_canonical : forall b pk, is_bytes b -> indcpa_pk_from_bytes LightSaber b = Ret pk -> pk_to_bytes pk = b /\ List.length b = 672%nat.
Proof.
  intros b pk B H. assert (L : List.length b = 672%nat).
  { destruct (Nat.eq_dec (List.length b) 672) as [L|L]; [exact L|]. apply light_pk_parse_panic in L. congruence. }
  split; [|exact L].
  destruct (pk_from_bytes_inv LightSaber b pk ps_light B) as [_ [_ Q]]; [|exact Q].
  unfold pk_from_bytes. change (PUBLIC_KEY_BYTES LightSaber) with (INDCPA_PUBLICKEYBYTES LightSaber). rewrite L, light_pk_bytes, Nat.eqb_refl, H. reflexivity.
Qed.
Lemma draw32 : forall r, List.length (fst (draw 32 r)) = 32%nat.
Proof. intro r. apply draw_length. Qed.
(** What the log of a session that signed says about its state. *)
Lemma signs_view_I : forall P h mpk r ssid cert usk l s T,
  hist (ibke_machine (IdSigmaR (fst mpk) P h)) (fst (ik_new (IdSigmaR (fst mpk) P h) r ssid mpk cert usk Initiator)) l s ->
  sigma_signs Initiator ssid (sm_cert_to_bytes cert) l T ->
  exists os kpk ksk ro nB ct r1 rest, keygen_ind_cpa h LightSaber os = (kpk, ksk, ro) /\
    List.length nB = 32%nat /\ List.length ct = 736%nat /\
    let ss := decapsulate_ind_cpa LightSaber ct ksk in
    oks l = ([], Some (fst (draw 32 r) ++ pk_to_bytes kpk)) :: (nB ++ ct, Some (sm_flight3 P ssid cert usk r1 ss nB ct kpk)) :: rest /\
    T = [0] ++ nB ++ ssid ++ pk_to_bytes kpk ++ ct ++ sm_cert_to_bytes cert /\
    sm_known P kpk (fst (draw 32 r)) nB ct ss s.
Proof.
  intros P h mpk r ssid cert usk l s T H S.
  apply (smx_hist P h ssid mpk cert usk _ Initiator r l s eq_refl) in H. destruct H as [_ H].
  destruct S as [nA [pk [nB' [ct' [enc [rest' [OK' [LA [LB' ->]]]]]]]]].
  destruct H as [[_ [_ [_ OK]]]|[os0 [kpk [ksk [ro [KG [SK [[ST [D [PK [NN OK]]]]|[nB [ct [r1 [rest [LB [LC [KW [OK _]]]]]]]]]]]]]]]];
    cbn zeta in *; rewrite OK in OK'; try discriminate OK'.
  injection OK' as E1 E2 E3 E4. subst enc rest'. apply app_split in E1; [|rewrite draw32; congruence]. apply app_split in E2; [|congruence].
  destruct E1 as [<- <-], E2 as [<- <-]. rewrite light_ct_bytes in LC.
  exists os0, kpk, ksk, ro, nB, ct, r1, rest. auto 10.
Qed.
Lemma signs_view_R : forall P h mpk r ssid cert usk l s T,
  hist (ibke_machine (IdSigmaR (fst mpk) P h)) (fst (ik_new (IdSigmaR (fst mpk) P h) r ssid mpk cert usk Responder)) l s ->
  byte_log l -> sigma_signs Responder ssid (sm_cert_to_bytes cert) l T ->
  exists os kpk nA pkb ss ct ro m id r1, List.length nA = 32%nat /\ List.length pkb = 672%nat /\ List.length ct = 736%nat /\
    indcpa_pk_from_bytes LightSaber pkb = Ret kpk /\ pk_to_bytes kpk = pkb /\ encapsulate_ind_cpa h LightSaber os kpk = (ss, ct, ro) /\
    oks l = [(nA ++ pkb, Some (fst (draw 32 r) ++ ct)); (m, Some (sm_flight4 P ssid cert usk r1 ss nA ct kpk))] /\
    T = [1] ++ nA ++ ssid ++ ct ++ pkb ++ sm_cert_to_bytes cert /\
    sm_known P kpk nA (fst (draw 32 r)) ct ss s /\ sm_id s = Some id.
Proof.
  intros P h mpk r ssid cert usk l s T H BL S.
  apply (smx_hist P h ssid mpk cert usk _ Responder r l s eq_refl) in H. destruct H as [_ H].
  destruct S as [nA' [pk [nB' [ct' [m' [enc [rest' [OK' [LA' [LB' ->]]]]]]]]]].
  destruct H as [[_ [_ [_ OK]]]|[os0 [kpk [nA [pkb [ss [ct [ro [LA [PKB [EN [KW [[ST [D OK]]|[ST [D [m [id [r1 [OK [ID AU]]]]]]]]]]]]]]]]]]]];
    rewrite OK in OK'; try discriminate OK'.
  injection OK' as E1 E2 E3 E4 E5. subst m' enc rest'. apply app_split in E1; [|congruence]. apply app_split in E2; [|rewrite draw32; congruence].
  destruct E1 as [<- <-], E2 as [_ <-].
  assert (B : is_bytes pkb).
  { assert (Q : is_bytes (nA ++ pkb)) by (eapply BL, oks_in; rewrite OK; left; reflexivity). apply is_bytes_app in Q. tauto. }
  destruct (light_pk_canonical _ _ B PKB) as [CA LP]. pose proof (encaps_len_light _ _ _ _ _ _ EN) as LC.
  exists os0, kpk, nA, pkb, ss, ct, ro, m, id, r1. auto 15.
Qed.
(** A session that has signed T sent, encrypted under keys of the shared secret, its signature
    of T, the MAC of its id and its certificate. *)
Theorem sigma_signature_sent : forall P h mpk r ssid cert usk rl l s T,
  let I := IdSigmaR (fst mpk) P h in let certb := sm_cert_to_bytes cert in
  hist (ibke_machine I) (fst (ik_new I r ssid mpk cert usk rl)) l s -> byte_log l ->
  sigma_signs rl ssid certb l T ->
  exists ss m r1, let lbl := match rl with Initiator => "enc_key_a" | Responder => "enc_key_b" end%string in
    In (m, Ok (Some (fst (auth_encrypt P r1 (expand P ss (str lbl) 64)
      (snd (t_sign P usk T) ++ hmac P (expand P ss (str "mac_key") 32) ([match rl with Initiator => 0 | Responder => 1 end] ++ smc_id cert) ++ certb))))) l.
Proof.
  intros P h mpk r ssid cert usk rl l s T I certb H BL S. destruct rl.
  - destruct (signs_view_I _ _ _ _ _ _ _ _ _ _ H S) as [os [kpk [ksk [ro [nB [ct [r1 [rest [KG [LB [LC [OK [-> KW]]]]]]]]]]]]].
    cbn zeta in OK. exists (decapsulate_ind_cpa LightSaber ct ksk), (nB ++ ct), r1. cbv zeta. apply oks_in. rewrite OK. right. left. reflexivity.
  - destruct (signs_view_R _ _ _ _ _ _ _ _ _ _ H BL S) as [os [kpk [nA [pkb [ss [ct [ro [m [id [r1 [LA [LP [LC [PK [CA [EN [OK [-> [KW ID]]]]]]]]]]]]]]]]]]].
    exists ss, m, r1. cbv zeta. apply oks_in. rewrite OK. right. left. unfold sm_flight4. rewrite CA. reflexivity.
Qed.

(* ------------------------------------------------------------------ *)
(** ** Matching conversations *)
(** The KEM's part of the conversation: the key pair is generated from [os], its public key
    travels as [pk], it is encapsulated to with [os'], giving the ciphertext [ct]. *)
Definition kem_between (h : saber_prims) (os os' : rng) (pk ct : bytes) : Prop :=
  exists kpk ksk ro ss ro', keygen_ind_cpa h LightSaber os = (kpk, ksk, ro) /\ pk = pk_to_bytes kpk /\
    encapsulate_ind_cpa h LightSaber os' kpk = (ss, ct, ro').

Lemma reload_encaps : forall h os kpk ksk ro kpk' os', keygen_ind_cpa h LightSaber os = (kpk, ksk, ro) ->
  indcpa_pk_from_bytes LightSaber (pk_to_bytes kpk) = Ret kpk' ->
  encapsulate_ind_cpa h LightSaber os' kpk' = encapsulate_ind_cpa h LightSaber os' kpk.
Proof.
  intros h os kpk ksk ro kpk' os' KG PK. rewrite keygen_cpa_eq in KG.
  destruct (indcpa_pk_reload h (bytes_at os 0 32) (bytes_at os 32 32)) as [_ [q [Q1 Q2]]]; [apply bytes_at_ok..|].
  destruct (indcpa_keypair h LightSaber (bytes_at os 0 32) (bytes_at os 32 32)) as [k1 k2]. injection KG as -> _ _. cbn [fst] in *.
  rewrite Q1 in PK. injection PK as ->. rewrite !encaps_cpa_eq, Q2. reflexivity.
Qed.

(** A completed initiator: [T] is the string on which it verified the peer's signature. *)
Theorem sigma_initiator_matched : forall P h mpk r ssid cert usk l s,
  let I := IdSigmaR (fst mpk) P h in
  hist (ibke_machine I) (fst (ik_new I r ssid mpk cert usk Initiator)) l s -> ik_done I s = true ->
  exists id k upk csig sg T, ik_fin I s = Ret (id, k) /\
    verify P (fst mpk) (snd mpk) (id ++ upk) csig = true /\ verify P (fst mpk) upk T sg = true /\
    forall mpk' r' ssid' cert' usk' rl' l' s', let I' := IdSigmaR (fst mpk') P h in
      hist (ibke_machine I') (fst (ik_new I' r' ssid' mpk' cert' usk' rl')) l' s' ->
      byte_log l' -> List.length ssid' = List.length ssid ->
      sigma_signs rl' ssid' (sm_cert_to_bytes cert') l' T ->
      rl' = Responder /\ ssid' = ssid /\ sm_cert_to_bytes cert' = id ++ upk ++ csig /\
      exists nA pk nB nB' ct m3 m3' m4 m4',
        oks l = [([], Some (nA ++ pk)); (nB ++ ct, Some m3); (m4, None)] /\
        oks l' = [(nA ++ pk, Some (nB' ++ ct)); (m3', Some m4')] /\
        List.length nA = 32%nat /\ List.length nB = 32%nat /\ List.length nB' = 32%nat /\
        exists os os', kem_between h os os' pk ct /\ (kem_ok h os os' -> exists id', ik_fin I' s' = Ret (id', k)).
Proof.
  intros P h mpk r ssid cert usk l s I H D. unfold I in *. clear I.
  apply (smx_hist P h ssid mpk cert usk _ Initiator r l s eq_refl) in H. destruct H as [_ H].
  cbn [IdSigmaR ik_done ik_fin IST] in *.
  destruct H as [[_ [D0 _]]|[os0 [kpk [ksk [ro [KG [SK [[_ [D0 _]]|[nB [ct [r1 [rest [LB [LC [KW [OK [[_ [D0 _]]|[_ [_ [m [id [RE [ID AU]]]]]]]]]]]]]]]]]]]]]]]; try congruence.
  cbn zeta in *. subst rest. destruct AU as [sg [upk [csig [_ [LI [LU [LCS [LS [V1 V2]]]]]]]]]. cbn zeta in V2.
  destruct KW as [_ [_ [_ [_ [_ KY]]]]]. rewrite ID, KY.
  exists id, (sm_out P (decapsulate_ind_cpa LightSaber ct ksk)), upk, csig, sg, (([1] ++ fst (draw 32 r) ++ ssid ++ ct ++ pk_to_bytes kpk) ++ id ++ upk ++ csig).
  split; [reflexivity|]. split; [exact V1|]. split; [exact V2|].
  intros mpk' r' ssid' cert' usk' rl' l' s' H' BL LS' S'.
  pose proof (draw32 r) as LN. pose proof (keygen_len_light _ _ _ _ _ KG) as LP. rewrite light_ct_bytes in LC.
  destruct rl'.
  { destruct (signs_view_I _ _ _ _ _ _ _ _ _ _ H' S') as [os [kpk' [ksk' [ro' [nB' [ct' [r1' [rest' [_ [_ [_ [_ [ET _]]]]]]]]]]]]]. discriminate ET. }
  destruct (signs_view_R _ _ _ _ _ _ _ _ _ _ H' BL S') as [os' [kpk' [nA' [pkb' [ss' [ct' [ro' [m' [id' [r1' [LA' [LP' [LC' [PK' [CA' [EN' [OK' [ET [KW' ID']]]]]]]]]]]]]]]]]]].
  rewrite <- !app_assoc in ET. cbn [app] in ET. injection ET as ET.
  apply app_split in ET; [|congruence]. destruct ET as [EA ET]. apply app_split in ET; [|congruence]. destruct ET as [ES ET].
  apply app_split in ET; [|congruence]. destruct ET as [EC ET]. apply app_split in ET; [|congruence]. destruct ET as [EP ET].
  split; [reflexivity|]. split; [congruence|]. split; [congruence|].
  exists (fst (draw 32 r)), (pk_to_bytes kpk), nB, (fst (draw 32 r')), ct. do 4 eexists.
  split; [exact OK|]. split; [rewrite OK', EA, EC, EP; reflexivity|]. split; [exact LN|]. split; [exact LB|]. split; [apply draw32|].
  assert (EK : encapsulate_ind_cpa h LightSaber os' kpk = (ss', ct, ro')).
  { rewrite EC, <- EN'. symmetry. apply (reload_encaps h os0 kpk ksk ro); [exact KG|]. rewrite EP. exact PK'. }
  exists os0, os'. split; [exists kpk, ksk, ro, ss', ro'; auto|].
  intro KO. unfold kem_ok in KO. rewrite KG, EK in KO. destruct KW' as [_ [_ [_ [_ [_ KY']]]]].
  cbn [IdSigmaR ik_fin]. rewrite ID', KY', KO. exists id'. reflexivity.
Qed.
(** A completed responder.  The initiator that signed may not be done yet; if it finalizes, it
    does so with the same key. *)
Theorem sigma_responder_matched : forall P h mpk r ssid cert usk l s,
  let I := IdSigmaR (fst mpk) P h in
  hist (ibke_machine I) (fst (ik_new I r ssid mpk cert usk Responder)) l s -> ik_done I s = true -> byte_log l ->
  exists id k upk csig sg T, ik_fin I s = Ret (id, k) /\
    verify P (fst mpk) (snd mpk) (id ++ upk) csig = true /\ verify P (fst mpk) upk T sg = true /\
    forall mpk' r' ssid' cert' usk' rl' l' s', let I' := IdSigmaR (fst mpk') P h in
      hist (ibke_machine I') (fst (ik_new I' r' ssid' mpk' cert' usk' rl')) l' s' ->
      byte_log l' -> List.length ssid' = List.length ssid ->
      sigma_signs rl' ssid' (sm_cert_to_bytes cert') l' T ->
      rl' = Initiator /\ ssid' = ssid /\ sm_cert_to_bytes cert' = id ++ upk ++ csig /\
      exists nA nA' pk nB ct m3 m3' m4 rest,
        oks l = [(nA ++ pk, Some (nB ++ ct)); (m3, Some m4)] /\
        oks l' = ([], Some (nA' ++ pk)) :: (nB ++ ct, Some m3') :: rest /\
        List.length nA = 32%nat /\ List.length nA' = 32%nat /\ List.length nB = 32%nat /\
        exists os os', kem_between h os os' pk ct /\ (kem_ok h os os' -> forall id' k', ik_fin I' s' = Ret (id', k') -> k' = k).
Proof.
  intros P h mpk r ssid cert usk l s I H D BL. unfold I in *. clear I.
  apply (smx_hist P h ssid mpk cert usk _ Responder r l s eq_refl) in H. destruct H as [_ H].
  cbn [IdSigmaR ik_done ik_fin IST] in *.
  destruct H as [[_ [D0 _]]|[os0 [kpk [nA [pkb [ss [ct [ro [LA [PKB [EN [KW [[_ [D0 _]]|[_ [_ [m [id [r1 [OK [ID AU]]]]]]]]]]]]]]]]]]]]; try congruence.
  destruct AU as [sg [upk [csig [_ [LI [LU [LCS [LS [V1 V2]]]]]]]]]. cbn zeta in V2.
  destruct KW as [_ [_ [_ [_ [_ KY]]]]]. rewrite ID, KY.
  exists id, (sm_out P ss), upk, csig, sg, (([0] ++ fst (draw 32 r) ++ ssid ++ pk_to_bytes kpk ++ ct) ++ id ++ upk ++ csig).
  split; [reflexivity|]. split; [exact V1|]. split; [exact V2|].
  intros mpk' r' ssid' cert' usk' rl' l' s' H' BL' LS' S'.
  assert (B : is_bytes pkb).
  { assert (Q : is_bytes (nA ++ pkb)) by (eapply BL, oks_in; rewrite OK; left; reflexivity). apply is_bytes_app in Q. tauto. }
  destruct (light_pk_canonical _ _ B PKB) as [CA LP]. pose proof (encaps_len_light _ _ _ _ _ _ EN) as LC.
  pose proof (draw32 r) as LN. rewrite CA in *.
  destruct rl'.
  2:{ destruct (signs_view_R _ _ _ _ _ _ _ _ _ _ H' BL' S') as [os' [kpk' [nA' [pkb' [ss' [ct' [ro' [m' [id' [r1' [_ [_ [_ [_ [_ [_ [_ [ET _]]]]]]]]]]]]]]]]]]. discriminate ET. }
  destruct (signs_view_I _ _ _ _ _ _ _ _ _ _ H' S') as [os' [kpk' [ksk' [ro' [nB' [ct' [r1' [rest' [KG' [LB' [LC' [OK' [ET KW']]]]]]]]]]]]].
  pose proof (keygen_len_light _ _ _ _ _ KG') as LP'.
  rewrite <- !app_assoc in ET. cbn [app] in ET. injection ET as ET.
  apply app_split in ET; [|congruence]. destruct ET as [EA ET]. apply app_split in ET; [|congruence]. destruct ET as [ES ET].
  apply app_split in ET; [|congruence]. destruct ET as [EP ET]. apply app_split in ET; [|congruence]. destruct ET as [EC ET].
  split; [reflexivity|]. split; [congruence|]. split; [congruence|]. cbn zeta in OK', KW'.
  exists nA, (fst (draw 32 r')), pkb, (fst (draw 32 r)), ct. do 4 eexists.
  split; [exact OK|]. split; [rewrite OK', EA, EC, EP; reflexivity|]. split; [exact LA|]. split; [apply draw32|]. split; [exact LN|].
  assert (EK : encapsulate_ind_cpa h LightSaber os0 kpk' = (ss, ct, ro)).
  { rewrite <- EN. symmetry. apply (reload_encaps h os' kpk' ksk' ro'); [exact KG'|]. rewrite <- EP. exact PKB. }
  exists os', os0. split; [exists kpk', ksk', ro', ss, ro; auto|].
  intros KO id' k' FI. unfold kem_ok in KO. rewrite KG', EK in KO. destruct KW' as [_ [_ [_ [_ [_ KY']]]]].
  cbn [IdSigmaR ik_fin] in FI. rewrite KY', <- EC, KO in FI. destruct (sm_id s'); cbn [unwrap obind] in FI; congruence.
Qed.
