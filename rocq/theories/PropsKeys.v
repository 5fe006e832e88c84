(** * PropsKeys: the exact bytes (C59).

    What each primitive construction and each session computes, written out over the primitives:
    the wide-block cipher, the authenticated encryption, the certificates, and the session key
    of CAKE, CPace and ID-SIG-DH as a function of the messages in the log of an arbitrary
    history of calls.  (The corresponding statements for KC-SPAKE2, ID-HMQV-C, FG-IBKE-C,
    ID-SIGMA-R and LATKE are in their own files; here their key formulas are spelled out.) *)
From Coq Require Import ZArith List Lia Bool String.
From Verif Require Import Base SaberPoly SaberKem SaberFacts Crypto Symmetric PropsSym Driver Pakes PropsPake Ibkes IbkeSpec
  PropsSigDh PropsHmqv PropsFg PropsSigma Chip IbkeToy.
Import ListNotations.
Open Scope Z_scope.
Local Opaque bytes_of INDCPA_PUBLICKEYBYTES BYTES_CCA_DEC.
Local Opaque indcpa_keypair indcpa_enc indcpa_dec decapsulate_ind_cpa indcpa_pk_from_bytes pk_to_bytes encapsulate_ind_cpa keygen_ind_cpa.

(* ---------------------------------------------------------------- the wide-block cipher *)
(** n bytes of the deck function on a domain byte ('h' = 104, 'g' = 103), a half block and a
    side byte. *)
Definition deck (P : prims) (key : bytes) (dom : Z) (half : bytes) (side : Z) (n : nat) : bytes :=
  bytes_of n (p_deck P key ([dom] ++ half ++ [side])).
(** Four Feistel rounds, of which the first and the last act on 16 bytes. *)
Theorem wide_block_encrypt_exact : forall P key l r0 r1,
  List.length l = 16%nat -> List.length r0 = 16%nat ->
  let r' := xor_bytes r0 (deck P key 104 l 0 16) ++ r1 in
  let l' := xor_bytes l (deck P key 103 r' 1 16) in
  let r'' := xor_bytes r' (deck P key 103 l' 0 (List.length r')) in
  let l'' := xor_bytes l' (deck P key 104 r'' 1 16) in
  wide_block_encrypt P key (l ++ r0 ++ r1) = Ret (l'' ++ r'').
Proof.
  intros P key l r0 r1 L0 L1 r' l' r'' l''. unfold wide_block_encrypt.
  rewrite round_r0_eq by assumption. cbn [obind].
  change (xor_bytes r0 (eval_deck P key ch_h 0 l 16) ++ r1) with r'.
  rewrite round_l_eq by assumption. cbn [obind].
  assert (L' : List.length l' = 16%nat).
  { unfold l', deck. rewrite xor_bytes_length, bytes_of_length, L0. reflexivity. }
  rewrite round_r_eq by exact L'. cbn [obind].
  rewrite round_l0_eq by exact L'. reflexivity.
Qed.
(** Decryption runs them backwards. *)
Theorem wide_block_decrypt_exact : forall P key l0 r,
  List.length l0 = 16%nat -> (16 <= List.length r)%nat ->
  let l' := xor_bytes l0 (deck P key 104 r 1 16) in
  let r' := xor_bytes r (deck P key 103 l' 0 (List.length r)) in
  let l'' := xor_bytes l' (deck P key 103 r' 1 16) in
  let r'' := xor_bytes (firstn 16 r') (deck P key 104 l'' 0 16) ++ skipn 16 r' in
  wide_block_decrypt P key (l0 ++ r) = Ret (l'' ++ r'').
Proof.
  intros P key l0 r L0 LR l' r' l'' r''. unfold wide_block_decrypt.
  rewrite round_l0_eq by assumption. cbn [obind].
  assert (L' : List.length l' = 16%nat).
  { unfold l', deck. rewrite xor_bytes_length, bytes_of_length, L0. reflexivity. }
  change (xor_bytes l0 (eval_deck P key ch_h 1 r 16)) with l'.
  rewrite round_r_eq by exact L'. cbn [obind].
  change (xor_bytes r (eval_deck P key ch_g 0 l' (List.length r))) with r'.
  rewrite round_l_eq by exact L'. cbn [obind].
  change (xor_bytes l' (eval_deck P key ch_g 1 r' 16)) with l''.
  assert (L'' : List.length l'' = 16%nat).
  { unfold l'', deck. rewrite xor_bytes_length, bytes_of_length, L'. reflexivity. }
  assert (LR' : List.length r' = List.length r).
  { unfold r', deck. rewrite xor_bytes_length, bytes_of_length. apply Nat.min_id. }
  rewrite <- (firstn_skipn 16 r') at 1.
  rewrite round_r0_eq; [reflexivity|exact L''|]. rewrite firstn_length, LR'. lia.
Qed.

(* ---------------------------------------------------------------- the authenticated encryption *)
(** The first half of the key encrypts, the second half authenticates; the wire format is
    ciphertext, 12-byte nonce drawn from the rng, 32-byte tag over both. *)
Theorem auth_encrypt_exact : forall P r ek mk msg, List.length ek = 32%nat ->
  let nonce := fst (draw 12 r) in
  let ct := xor_bytes msg (bytes_of (List.length msg) (p_chacha20 P ek nonce)) in
  fst (auth_encrypt P r (ek ++ mk) msg) = ct ++ nonce ++ bytes_of 32 (p_hmac P mk (ct ++ nonce)).
Proof.
  intros P r ek mk msg L nonce ct. unfold auth_encrypt.
  replace (firstn 32 (ek ++ mk)) with ek by (rewrite firstn_app, L, Nat.sub_diag, firstn_O, app_nil_r, <- L, firstn_all; reflexivity).
  replace (skipn 32 (ek ++ mk)) with mk by (rewrite skipn_app, L, Nat.sub_diag, skipn_O, <- L, skipn_all; reflexivity).
  unfold NONCELEN, nonce, ct, nonce. destruct (draw 12 r) as [n r1]. cbn [fst]. unfold stream_xor, hmac. rewrite <- app_assoc. reflexivity.
Qed.

(* ---------------------------------------------------------------- CAKE *)
Section CAKE.
Variables (P : prims) (h : saber_prims) (ssid pw : bytes).
Let M := pake_machine (CakePake P h).
(** The key of the ideal cipher for one direction. *)
Definition cake_ic_key (dir : Z) : bytes := expand P (hash256 P pw) ([dir] ++ ssid) 32.
Lemma ic_encrypt : forall d x, ideal_cipher_encrypt P d ssid pw x = wide_block_encrypt P (cake_ic_key d) x.
Proof. intros. unfold ideal_cipher_encrypt. rewrite cake_key_ok. reflexivity. Qed.
Lemma ic_decrypt : forall d x, ideal_cipher_decrypt P d ssid pw x = wide_block_decrypt P (cake_ic_key d) x.
Proof. intros. unfold ideal_cipher_decrypt. rewrite cake_key_ok. reflexivity. Qed.
Definition ck_fixed (s : cake) : Prop := ck_ssid s = ssid /\ ck_password s = pw.
(** What a session sent and received, and its key. *)
Definition ck_inv_I (l : log M) (s : cake) : Prop :=
  ck_fixed s /\
  ((ck_step s = 0%nat /\ ck_done s = false) \/
   (exists os pk sk ro c0, keygen_ind_cpa h LightSaber os = (pk, sk, ro) /\
      wide_block_encrypt P (cake_ic_key 0) (pk_to_bytes pk) = Ret c0 /\ In ([], Ok (Some c0)) l /\
      ((ck_step s = 2%nat /\ ck_done s = false /\ ck_sk s = Some sk) \/
       (ck_step s = 4%nat /\ ck_done s = true /\ exists m ct, In (m, Ok None) l /\
          wide_block_decrypt P (cake_ic_key 1) m = Ret ct /\ ck_key s = Some (decapsulate_ind_cpa LightSaber ct sk))))).
Definition ck_inv_R (l : log M) (s : cake) : Prop :=
  ck_fixed s /\
  ((ck_step s = 1%nat /\ ck_done s = false) \/
   (ck_step s = 3%nat /\ ck_done s = true /\ exists m pkb pk os ss ct ro c1,
      wide_block_decrypt P (cake_ic_key 0) m = Ret pkb /\ indcpa_pk_from_bytes LightSaber pkb = Ret pk /\
      encapsulate_ind_cpa h LightSaber os pk = (ss, ct, ro) /\
      wide_block_encrypt P (cake_ic_key 1) ct = Ret c1 /\ In (m, Ok (Some c1)) l /\ ck_key s = Some ss)).
Lemma ck_inv_hist_I : forall r s0 r' l s, pk_new (CakePake P h) r ssid pw Initiator = Ret (s0, r') ->
  hist M s0 l s -> ck_inv_I l s.
Proof.
  intros r s0 r' l s N H. cbn [CakePake pk_new] in N. unfold cake_new in N. injection N as <- _.
  induction H as [|l s rr m s' o H IH E].
  { split; [split; reflexivity|]. left. split; reflexivity. }
  cbn [M pake_machine m_run CakePake pk_run] in E. unfold cake_run in E.
  destruct IH as [[F1 F2] IH]. rewrite F1, F2 in E.
  destruct IH as [[ST D]|[os [pk [sk [ro [c0 [KG [EN [IN [[ST [D SK]]|[ST _]]]]]]]]]]]; rewrite ST in E; [| |discriminate E].
  - obi E. injection E as <- <-. cbn [ck_step ck_done ck_sk ck_key ck_ssid ck_password]. split; [split; reflexivity|]. right.
    destruct m; [|discriminate].
    match goal with X : copy_exact _ _ = Ret _ |- _ => apply copy_exact_inv in X; destruct X as [-> _] end.
    rewrite ic_encrypt in *. do 5 eexists. split; [eassumption|]. split; [eassumption|]. split; [apply in_last|].
    left. cbn. rewrite D. auto.
  - rewrite SK in E. obi E. unw. injection E as <- <-. split; [split; reflexivity|]. right.
    exists os, pk, sk, ro, c0. split; [exact KG|]. split; [exact EN|]. split; [apply in_snoc, IN|]. right. cbn [ck_step ck_done ck_key]. split; [reflexivity|]. split; [reflexivity|].
    rewrite ic_decrypt in *.
    match goal with X : unwrap_ok ?c = Ret _, Y : ciphertext_from_bytes _ _ = Ret ?c |- _ => destruct c; [|discriminate X]; cbn [unwrap_ok] in X; injection X as <-; apply ct_from_inv in Y; subst end.
    do 2 eexists. split; [apply in_last|]. split; [eassumption|]. reflexivity.
Qed.
Lemma ck_inv_hist_R : forall r s0 r' l s, pk_new (CakePake P h) r ssid pw Responder = Ret (s0, r') ->
  hist M s0 l s -> ck_inv_R l s.
Proof.
  intros r s0 r' l s N H. cbn [CakePake pk_new] in N. unfold cake_new in N. injection N as <- _.
  induction H as [|l s rr m s' o H IH E].
  { split; [split; reflexivity|]. left. split; reflexivity. }
  cbn [M pake_machine m_run CakePake pk_run] in E. unfold cake_run in E.
  destruct IH as [[F1 F2] IH]. rewrite F1, F2 in E.
  destruct IH as [[ST D]|[ST _]]; rewrite ST in E; [|discriminate E].
  obi E. injection E as <- <-. cbn [ck_step ck_done ck_key ck_ssid ck_password]. split; [split; reflexivity|]. right.
  cbn [ck_step ck_done ck_key]. split; [reflexivity|]. split; [reflexivity|].
  match goal with X : copy_exact _ _ = Ret _ |- _ => apply copy_exact_inv in X; destruct X as [-> _] end.
  rewrite ic_decrypt, ic_encrypt in *. do 8 eexists. repeat (split; [eassumption|]). split; [apply in_last|]. reflexivity.
Qed.
(** A done initiator sent the encryption of a KEM key it generated under the password and ssid
    and accepted a message; its key is the decapsulation of the decryption of that message. *)
Theorem cake_initiator_key : forall r s0 r' l s k, pk_new (CakePake P h) r ssid pw Initiator = Ret (s0, r') ->
  hist M s0 l s -> pk_done (CakePake P h) s = true -> pk_fin (CakePake P h) s = Ret k ->
  exists os pk sk ro c0 m ct, keygen_ind_cpa h LightSaber os = (pk, sk, ro) /\
    wide_block_encrypt P (expand P (hash256 P pw) ([0] ++ ssid) 32) (pk_to_bytes pk) = Ret c0 /\ In ([], Ok (Some c0)) l /\
    In (m, Ok None) l /\ wide_block_decrypt P (expand P (hash256 P pw) ([1] ++ ssid) 32) m = Ret ct /\
    k = decapsulate_ind_cpa LightSaber ct sk.
Proof.
  intros r s0 r' l s k N H D F. apply (ck_inv_hist_I _ _ _ _ _ N) in H. cbn [CakePake pk_done pk_fin PST] in *.
  destruct H as [_ [[_ D0]|[os [pk [sk [ro [c0 [KG [EN [IN [[_ [D0 _]]|[_ [_ [m [ct [IM [DE KY]]]]]]]]]]]]]]]]]; try congruence.
  rewrite KY in F. cbn [unwrap] in F. injection F as <-. exists os, pk, sk, ro, c0, m, ct. auto 10.
Qed.
Theorem cake_responder_key : forall r s0 r' l s k, pk_new (CakePake P h) r ssid pw Responder = Ret (s0, r') ->
  hist M s0 l s -> pk_done (CakePake P h) s = true -> pk_fin (CakePake P h) s = Ret k ->
  exists m pkb pk os ct ro c1,
    wide_block_decrypt P (expand P (hash256 P pw) ([0] ++ ssid) 32) m = Ret pkb /\ indcpa_pk_from_bytes LightSaber pkb = Ret pk /\
    encapsulate_ind_cpa h LightSaber os pk = (k, ct, ro) /\
    wide_block_encrypt P (expand P (hash256 P pw) ([1] ++ ssid) 32) ct = Ret c1 /\ In (m, Ok (Some c1)) l.
Proof.
  intros r s0 r' l s k N H D F. apply (ck_inv_hist_R _ _ _ _ _ N) in H. cbn [CakePake pk_done pk_fin PST] in *.
  destruct H as [_ [[_ D0]|[_ [_ [m [pkb [pk [os [ss [ct [ro [c1 [DE [PK [EN [EC [IN KY]]]]]]]]]]]]]]]]]; try congruence.
  rewrite KY in F. cbn [unwrap] in F. injection F as <-. exists m, pkb, pk, os, ct, ro, c1. auto 10.
Qed.
End CAKE.

(* ---------------------------------------------------------------- CPace *)
Section CPACE.
Variables (C : cpace_crate) (ssid pw : bytes).
Let M := pake_machine (CpacePake C).
Let idI := str "latke_cpace_initiator".
Let idR := str "latke_cpace_responder".
Definition cp_inv (rl : role) (l : log M) (s : cpace C) : Prop :=
  cp_ssid s = ssid /\ cp_password s = b64_encode pw /\
  match rl with
  | Initiator =>
    (cp_step s = 0%nat /\ cp_done s = false) \/
    (exists os st, cp_step1 C (b64_encode pw) idI idR ssid os = Some st /\
       In ([], Ok (Some (bytes_of 48 (cp_packet1 C st)))) l /\
       ((cp_step s = 2%nat /\ cp_done s = false /\ cp_state s = Some st) \/
        (cp_step s = 4%nat /\ cp_done s = true /\ exists m k, List.length m = 32%nat /\ In (m, Ok None) l /\
           cp_step3 C st m = Some k /\ cp_key s = Some (bytes_of 32 k))))
  | Responder =>
    (cp_step s = 1%nat /\ cp_done s = false) \/
    (cp_step s = 3%nat /\ cp_done s = true /\ exists m os k p, List.length m = 48%nat /\
       cp_step2 C m (b64_encode pw) idI idR ssid os = Some (k, p) /\
       In (m, Ok (Some (bytes_of 32 p))) l /\ cp_key s = Some (bytes_of 32 k))
  end.
Lemma cp_inv_hist : forall rl r s0 r' l s, pk_new (CpacePake C) r ssid pw rl = Ret (s0, r') ->
  hist M s0 l s -> cp_inv rl l s.
Proof.
  intros rl r s0 r' l s N H. cbn [CpacePake pk_new] in N. unfold cpace_new in N. injection N as <- _.
  induction H as [|l s rr m s' o H IH E].
  { split; [reflexivity|]. split; [reflexivity|]. destruct rl; left; split; reflexivity. }
  cbn [M pake_machine m_run CpacePake pk_run] in E. unfold cpace_run in E.
  destruct IH as [F1 [F2 IH]]. rewrite F1, F2 in E. destruct rl.
  - destruct IH as [[ST D]|[os [st [S1 [IN [[ST [D SK]]|[ST _]]]]]]]; rewrite ST in E; [| |discriminate E].
    + obi E. injection E as <- <-. split; [reflexivity|]. split; [reflexivity|]. right. destruct m; [|discriminate].
      match goal with X : unwrap (cp_step1 _ _ _ _ _ _) = Ret _ |- _ => destruct (cp_step1 _ _ _ _ _ _) eqn:S1 in X; [|discriminate X]; cbn [unwrap] in X; injection X as <- end.
      do 2 eexists. split; [exact S1|]. split; [apply in_last|]. left. cbn. rewrite D. auto.
    + rewrite SK in E. obi E. unw. injection E as <- <-. split; [reflexivity|]. split; [reflexivity|]. right.
      exists os, st. split; [exact S1|]. split; [apply in_snoc, IN|]. right. cbn [cp_step cp_done cp_key]. split; [reflexivity|]. split; [reflexivity|].
      match goal with X : copy_exact _ _ = Ret _ |- _ => apply copy_exact_inv in X; destruct X as [-> LM] end.
      match goal with X : unwrap (cp_step3 _ _ _) = Ret _ |- _ => destruct (cp_step3 _ _ _) eqn:S3 in X; [|discriminate X]; cbn [unwrap] in X; injection X as <- end.
      do 2 eexists. split; [exact LM|]. split; [apply in_last|]. split; [exact S3|reflexivity].
  - destruct IH as [[ST D]|[ST _]]; rewrite ST in E; [|discriminate E].
    obi E. injection E as <- <-. split; [reflexivity|]. split; [reflexivity|]. right. cbn [cp_step cp_done cp_key]. split; [reflexivity|]. split; [reflexivity|].
    match goal with X : copy_exact _ _ = Ret _ |- _ => apply copy_exact_inv in X; destruct X as [-> LM] end.
    match goal with X : unwrap (cp_step2 _ _ _ _ _ _ _) = Ret _ |- _ => destruct (cp_step2 _ _ _ _ _ _ _) eqn:S2 in X; [|discriminate X]; cbn [unwrap] in X; injection X as -> end.
    do 4 eexists. split; [exact LM|]. split; [exact S2|]. split; [apply in_last|reflexivity].
Qed.
(** A done initiator called the crate's step 1 on the base64 of the password, the two protocol
    identities and the ssid, and step 3 on the message it accepted; its key is what step 3 gave. *)
Theorem cpace_initiator_key : forall r s0 r' l s k, pk_new (CpacePake C) r ssid pw Initiator = Ret (s0, r') ->
  hist M s0 l s -> pk_done (CpacePake C) s = true -> pk_fin (CpacePake C) s = Ret k ->
  exists os st m k', cp_step1 C (b64_encode pw) (str "latke_cpace_initiator") (str "latke_cpace_responder") ssid os = Some st /\
    In ([], Ok (Some (bytes_of 48 (cp_packet1 C st)))) l /\ In (m, Ok None) l /\ List.length m = 32%nat /\
    cp_step3 C st m = Some k' /\ k = bytes_of 32 k'.
Proof.
  intros r s0 r' l s k N H D F. apply (cp_inv_hist _ _ _ _ _ _ N) in H. cbn [CpacePake pk_done pk_fin PST] in *.
  destruct H as [_ [_ [[_ D0]|[os [st [S1 [IN [[_ [D0 _]]|[_ [_ [m [k' [LM [IM [S3 KY]]]]]]]]]]]]]]]; try congruence.
  rewrite KY in F. cbn [unwrap] in F. injection F as <-. exists os, st, m, k'. auto 10.
Qed.
Theorem cpace_responder_key : forall r s0 r' l s k, pk_new (CpacePake C) r ssid pw Responder = Ret (s0, r') ->
  hist M s0 l s -> pk_done (CpacePake C) s = true -> pk_fin (CpacePake C) s = Ret k ->
  exists os m k' p, List.length m = 48%nat /\
    cp_step2 C m (b64_encode pw) (str "latke_cpace_initiator") (str "latke_cpace_responder") ssid os = Some (k', p) /\
    In (m, Ok (Some (bytes_of 32 p))) l /\ k = bytes_of 32 k'.
Proof.
  intros r s0 r' l s k N H D F. apply (cp_inv_hist _ _ _ _ _ _ N) in H. cbn [CpacePake pk_done pk_fin PST] in *.
  destruct H as [_ [_ [[_ D0]|[_ [_ [m [os [k' [p [LM [S2 [IN KY]]]]]]]]]]]]; try congruence.
  rewrite KY in F. cbn [unwrap] in F. injection F as <-. exists os, m, k', p. auto 10.
Qed.
End CPACE.

(* ---------------------------------------------------------------- ID-SIG-DH *)
Section SIGDH.
Variables (P : prims) (ssid mpk : bytes) (cert : sd_cert) (usk : bytes * bytes).
Let M := ibke_machine (IdSigDh P).
(** The message of a party with tag byte [tag] and ephemeral secret [e]. *)
Definition sd_msg (tag : Z) (e : bytes) : bytes :=
  x_pub P e ++ sign P Ed25519 (fst usk) ([tag] ++ ssid ++ x_pub P e) ++
  sdc_id cert ++ fst (sdc_upk cert) ++ snd (sdc_upk cert) ++ sdc_sig cert.
Definition sdk_inv_I (l : log M) (s : sigdh) : Prop :=
  sd_fixed ssid mpk cert usk s /\
  ((sd_step s = 0%nat /\ sd_done s = false) \/
   (exists e, In ([], Ok (Some (sd_msg 0 e))) l /\ sd_eph_sk s = Some e /\ sd_eph_pk s = Some (x_pub P e) /\
      ((sd_step s = 2%nat /\ sd_done s = false) \/
       (sd_step s = 4%nat /\ sd_done s = true /\ exists eph sg id pk dh csig,
          In (eph ++ sg ++ id ++ pk ++ dh ++ csig, Ok None) l /\
          List.length eph = 32%nat /\ List.length sg = 64%nat /\ List.length id = 32%nat /\ List.length pk = 32%nat /\ List.length dh = 32%nat /\
          sd_id s = Some id /\
          sd_key s = Some (expand P (extract P None
            (x_dh P (snd usk) dh ++ x_dh P e dh ++ x_dh P (snd usk) eph ++ x_dh P e eph)) (ssid ++ x_pub P e ++ eph) 32))))).
Definition sdk_inv_R (l : log M) (s : sigdh) : Prop :=
  sd_fixed ssid mpk cert usk s /\
  ((sd_step s = 1%nat /\ sd_done s = false) \/
   (sd_step s = 3%nat /\ sd_done s = true /\ exists e eph sg id pk dh csig,
      In (eph ++ sg ++ id ++ pk ++ dh ++ csig, Ok (Some (sd_msg 1 e))) l /\
      List.length eph = 32%nat /\ List.length sg = 64%nat /\ List.length id = 32%nat /\ List.length pk = 32%nat /\ List.length dh = 32%nat /\
      sd_id s = Some id /\
      sd_key s = Some (expand P (extract P None
        (x_dh P (snd usk) dh ++ x_dh P (snd usk) eph ++ x_dh P e dh ++ x_dh P e eph)) (ssid ++ eph ++ x_pub P e) 32))).
Lemma sdk_inv_hist_I : forall r l s, hist M (fst (ik_new (IdSigDh P) r ssid mpk cert usk Initiator)) l s -> sdk_inv_I l s.
Proof.
  intros r l s H. induction H as [|l s rr m s' o H IH E].
  { split; [repeat split|]. left. split; reflexivity. }
  cbn [M m_run ibke_machine IdSigDh ik_run] in E. obi E. injection E as <- <-. rename E0 into E.
  destruct IH as [F IH]. pose proof F as [F1 [F2 [F3 F4]]]. unfold sd_run in E. rewrite F1, F2, F3, F4 in E.
  destruct IH as [[ST D]|[e [IN [ES [EP [[ST D]|[ST _]]]]]]]; rewrite ST in E; [| |discriminate E].
  - obi E. injection E as <- <- <-. split; [repeat split|]. right. destruct m; [|discriminate].
    eexists. split; [apply in_last|]. cbn. rewrite D. auto.
  - rewrite ES, EP in E. obi E.
    match type of E with (if negb ?u then _ else _) = _ => destruct u end; cbn [negb] in E.
    2:{ injection E as <- <- <-. split; [exact F|]. right. exists e. split; [apply in_snoc, IN|]. auto. }
    match type of E with (if negb ?u then _ else _) = _ => destruct u end; cbn [negb] in E.
    2:{ injection E as <- <- <-. split; [repeat split|]. right. exists e. split; [apply in_snoc, IN|]. cbn. auto. }
    obi E. unw. injection E as <- <- <-. split; [repeat split|]. right. exists e. split; [apply in_snoc, IN|]. cbn [sd_eph_sk sd_eph_pk sd_step sd_done sd_id sd_key].
    split; [reflexivity|]. split; [reflexivity|]. right. split; [reflexivity|]. split; [reflexivity|].
    match goal with X : sd_parse _ _ = Ret (_, _, ?c) |- _ => apply sd_parse_inv in X; destruct X as [-> [L1 [L2 [L3 [L4 [L5 [L6 _]]]]]]]; destruct c as [id [pk dh] cs] end.
    cbn [sdc_id sdc_upk sdc_sig fst snd] in *. do 6 eexists. split; [apply in_last|]. repeat (split; [eassumption|]). split; reflexivity.
Qed.
Lemma sdk_inv_hist_R : forall r l s, hist M (fst (ik_new (IdSigDh P) r ssid mpk cert usk Responder)) l s -> sdk_inv_R l s.
Proof.
  intros r l s H. induction H as [|l s rr m s' o H IH E].
  { split; [repeat split|]. left. split; reflexivity. }
  cbn [M m_run ibke_machine IdSigDh ik_run] in E. obi E. injection E as <- <-. rename E0 into E.
  destruct IH as [F IH]. pose proof F as [F1 [F2 [F3 F4]]]. unfold sd_run in E. rewrite F1, F2, F3, F4 in E.
  destruct IH as [[ST D]|[ST _]]; rewrite ST in E; [|discriminate E].
  obi E.
  match type of E with (if negb ?u then _ else _) = _ => destruct u end; cbn [negb] in E.
  2:{ injection E as <- <- <-. split; [exact F|]. left. auto. }
  match type of E with (if negb ?u then _ else _) = _ => destruct u end; cbn [negb] in E.
  2:{ injection E as <- <- <-. split; [repeat split|]. left. cbn. auto. }
  obi E. injection E as <- <- <-. split; [repeat split|]. right. cbn [sd_step sd_done sd_id sd_key].
  split; [reflexivity|]. split; [reflexivity|].
  match goal with X : sd_parse _ _ = Ret (_, _, ?c) |- _ => apply sd_parse_inv in X; destruct X as [-> [L1 [L2 [L3 [L4 [L5 [L6 _]]]]]]]; destruct c as [id [pk dh] cs] end.
  cbn [sdc_id sdc_upk sdc_sig fst snd] in *. do 7 eexists. split; [apply in_last|]. repeat (split; [eassumption|]). split; reflexivity.
Qed.
(** A done initiator sent its own message with an ephemeral key x_pub e and accepted one with
    ephemeral key [eph] and certified static key [dh] for [id]; its key is HKDF over the four
    Diffie-Hellman values static-static, ephemeral-static, static-ephemeral, ephemeral-ephemeral
    with info ssid, initiator's ephemeral key, responder's ephemeral key. *)
Theorem sig_dh_initiator_key : forall r l s, hist M (fst (ik_new (IdSigDh P) r ssid mpk cert usk Initiator)) l s ->
  ik_done (IdSigDh P) s = true ->
  exists e eph sg id pk dh csig,
    In ([], Ok (Some (sd_msg 0 e))) l /\ In (eph ++ sg ++ id ++ pk ++ dh ++ csig, Ok None) l /\
    List.length eph = 32%nat /\ List.length sg = 64%nat /\ List.length id = 32%nat /\ List.length pk = 32%nat /\ List.length dh = 32%nat /\
    ik_fin (IdSigDh P) s = Ret (id, expand P (extract P None
      (x_dh P (snd usk) dh ++ x_dh P e dh ++ x_dh P (snd usk) eph ++ x_dh P e eph)) (ssid ++ x_pub P e ++ eph) 32).
Proof.
  intros r l s H D. apply sdk_inv_hist_I in H. cbn [IdSigDh ik_done ik_fin IST] in *.
  destruct H as [_ [[_ D0]|[e [IN [_ [_ [[_ D0]|[_ [_ [eph [sg [id [pk [dh [cs [IM [L1 [L2 [L3 [L4 [L5 [HI HK]]]]]]]]]]]]]]]]]]]]]]; try congruence.
  exists e, eph, sg, id, pk, dh, cs. rewrite HI, HK. auto 10.
Qed.
Theorem sig_dh_responder_key : forall r l s, hist M (fst (ik_new (IdSigDh P) r ssid mpk cert usk Responder)) l s ->
  ik_done (IdSigDh P) s = true ->
  exists e eph sg id pk dh csig,
    In (eph ++ sg ++ id ++ pk ++ dh ++ csig, Ok (Some (sd_msg 1 e))) l /\
    List.length eph = 32%nat /\ List.length sg = 64%nat /\ List.length id = 32%nat /\ List.length pk = 32%nat /\ List.length dh = 32%nat /\
    ik_fin (IdSigDh P) s = Ret (id, expand P (extract P None
      (x_dh P (snd usk) dh ++ x_dh P (snd usk) eph ++ x_dh P e dh ++ x_dh P e eph)) (ssid ++ eph ++ x_pub P e) 32).
Proof.
  intros r l s H D. apply sdk_inv_hist_R in H. cbn [IdSigDh ik_done ik_fin IST] in *.
  destruct H as [_ [[_ D0]|[_ [_ [e [eph [sg [id [pk [dh [cs [IM [L1 [L2 [L3 [L4 [L5 [HI HK]]]]]]]]]]]]]]]]]]; try congruence.
  exists e, eph, sg, id, pk, dh, cs. rewrite HI, HK. auto 10.
Qed.
End SIGDH.

(* ---------------------------------------------------------------- the other protocols, spelled out *)
(** ID-HMQV-C: the key and both MACs of a shared point. *)
Theorem hmqv_keys_exact : forall P G ssid sigma,
  hm_derive P G ssid sigma =
  Ret (expand P (compress G sigma) (ssid ++ str "mac0") 32, expand P (compress G sigma) (ssid ++ str "mac1") 32,
       expand P (compress G sigma) (ssid ++ str "sess key") 32).
Proof. intros. apply hm_derive_ok. Qed.
(** A done ID-HMQV-C initiator, written out. *)
Theorem hmqv_initiator_key : forall P G, group_laws G -> forall r ssid mpk cert usk l s,
  hist (ibke_machine (IdHmqvC P G)) (fst (ik_new (IdHmqvC P G) r ssid mpk cert usk Initiator)) l s ->
  ik_done (IdHmqvC P G) s = true ->
  exists x m0 o eph upk id csig,
    let d := s_wide G (hash512 P (compress G (g_base G x) ++ id)) in
    let e := s_wide G (hash512 P (compress G eph ++ hmc_id cert)) in
    let sigma := compress G (g_mul G (g_add G eph (g_mul G upk e)) (s_add G x (s_mul G d usk))) in
    In (m0, Ok (Some (compress G (g_base G x) ++ hmc_id cert ++ compress G (hmc_upk cert) ++ hmc_sig cert))) l /\
    In (compress G eph ++ expand P sigma (ssid ++ str "mac1") 32 ++ id ++ compress G upk ++ csig, Ok o) l /\
    ik_fin (IdHmqvC P G) s = Ret (id, expand P sigma (ssid ++ str "sess key") 32) /\
    verify P Ed25519 mpk (id ++ compress G upk) csig = true.
Proof.
  intros P G L r ssid mpk cert usk l s H D.
  destruct (hmqv_initiator_done_confirmed P G L r ssid mpk cert usk l s H D) as [x [m0 [m [o [id [k [I0 [IM [FN [eph [upk [cb [EM [[cs [-> [_ [_ V]]]] EK]]]]]]]]]]]]]].
  cbn zeta in EM, EK. subst m k. exists x, m0, o, eph, upk, id, cs. cbn zeta.
  split; [exact I0|]. split; [exact IM|]. split; [exact FN|exact V].
Qed.
Theorem hmqv_responder_key : forall P G, group_laws G -> forall r ssid mpk cert usk l s,
  hist (ibke_machine (IdHmqvC P G)) (fst (ik_new (IdHmqvC P G) r ssid mpk cert usk Responder)) l s ->
  ik_done (IdHmqvC P G) s = true ->
  exists y mac1 eph upk id csig,
    let d := s_wide G (hash512 P (compress G eph ++ hmc_id cert)) in
    let e := s_wide G (hash512 P (compress G (g_base G y) ++ id)) in
    let sigma := compress G (g_mul G (g_add G eph (g_mul G upk d)) (s_add G y (s_mul G e usk))) in
    In (compress G eph ++ id ++ compress G upk ++ csig,
        Ok (Some (compress G (g_base G y) ++ mac1 ++ hmc_id cert ++ compress G (hmc_upk cert) ++ hmc_sig cert))) l /\
    In (expand P sigma (ssid ++ str "mac0") 32, Ok None) l /\
    ik_fin (IdHmqvC P G) s = Ret (id, expand P sigma (ssid ++ str "sess key") 32) /\
    verify P Ed25519 mpk (id ++ compress G upk) csig = true.
Proof.
  intros P G L r ssid mpk cert usk l s H D.
  destruct (hmqv_responder_done_confirmed P G L r ssid mpk cert usk l s H D) as [y [m [mac1 [m' [id [k [I0 [IM [FN [eph [upk [cb [EM [[cs [-> [_ [_ V]]]] [EM' EK]]]]]]]]]]]]]]].
  cbn zeta in EM, EM', EK. subst m m' k. exists y, mac1, eph, upk, id, cs. cbn zeta.
  split; [exact I0|]. split; [exact IM|]. split; [exact FN|exact V].
Qed.
(** A done FG-IBKE-C initiator: the 96 bytes of the two shared points give MAC, MAC and key; the
    output is HKDF with salt "fgibke-tr-hash" over transcript and key, info ssid, "fgibke-final". *)
Theorem fg_initiator_key : forall P G, group_laws G -> forall r ssid mpk cert usk l s,
  hist (ibke_machine (FgIbkeC P G)) (fst (ik_new (FgIbkeC P G) r ssid mpk cert usk Initiator)) l s ->
  ik_done (FgIbkeC P G) s = true ->
  exists x m0 o eph X mp id,
    let hash := s_wide G (hash512 P ([2] ++ id ++ compress G X)) in
    let alpha := g_mul G eph x in
    let beta := g_mul G (g_add G (g_add G eph X) (g_mul G mp hash)) (s_add G x (fgc_xhat cert)) in
    let okm := expand P (compress G alpha ++ compress G beta) (str "fg-expand") 96 in
    mpk = compress G mp /\
    In (m0, Ok (Some (fgc_id cert ++ compress G (fgc_X cert) ++ compress G (g_base G x)))) l /\
    In (id ++ compress G X ++ compress G eph ++ firstn 32 (skipn 32 okm), Ok o) l /\
    ik_fin (FgIbkeC P G) s = Ret (id, expand P
      (extract P (Some (str "fgibke-tr-hash")) (log_transcript l ++ skipn 64 okm)) (ssid ++ str "fgibke-final") 32).
Proof.
  intros P G L r ssid mpk cert usk l s H D.
  destruct (fg_initiator_done_confirmed P G L r ssid mpk cert usk l s H D) as [x [m0 [m [o [id [k [I0 [IM [FN [eph [X [mp [EP [_ [EM EK]]]]]]]]]]]]]]].
  cbn zeta in EM, EK. subst m k. exists x, m0, o, eph, X, mp, id. cbn zeta.
  split; [exact EP|]. split; [exact I0|]. split; [exact IM|exact FN].
Qed.
Theorem fg_responder_key : forall P G, group_laws G -> forall r ssid mpk cert usk l s,
  hist (ibke_machine (FgIbkeC P G)) (fst (ik_new (FgIbkeC P G) r ssid mpk cert usk Responder)) l s ->
  ik_done (FgIbkeC P G) s = true ->
  exists y mac1 eph X mp id,
    let hash := s_wide G (hash512 P ([2] ++ id ++ compress G X)) in
    let alpha := g_mul G eph y in
    let beta := g_mul G (g_add G (g_add G eph X) (g_mul G mp hash)) (s_add G y (fgc_xhat cert)) in
    let okm := expand P (compress G alpha ++ compress G beta) (str "fg-expand") 96 in
    mpk = compress G mp /\
    In (id ++ compress G X ++ compress G eph,
        Ok (Some ((fgc_id cert ++ compress G (fgc_X cert) ++ compress G (g_base G y)) ++ mac1))) l /\
    In (firstn 32 okm, Ok None) l /\
    ik_fin (FgIbkeC P G) s = Ret (id, expand P
      (extract P (Some (str "fgibke-tr-hash")) (log_transcript l ++ skipn 64 okm)) (ssid ++ str "fgibke-final") 32).
Proof.
  intros P G L r ssid mpk cert usk l s H D.
  destruct (fg_responder_done_confirmed P G L r ssid mpk cert usk l s H D) as [y [m [mac1 [m' [id [k [I0 [IM [FN [eph [X [mp [EP [_ [EM [EM' EK]]]]]]]]]]]]]]]].
  cbn zeta in EM, EM', EK. subst m m' k. exists y, mac1, eph, X, mp, id. cbn zeta.
  split; [exact EP|]. split; [exact I0|]. split; [exact IM|exact FN].
Qed.
(** ID-SIGMA-R: the output key of a done session, over the KEM's shared secret. *)
Theorem sigma_initiator_key : forall P h r ssid mpk cert usk l s,
  let I := IdSigmaR (fst mpk) P h in
  hist (ibke_machine I) (fst (ik_new I r ssid mpk cert usk Initiator)) l s -> ik_done I s = true ->
  exists os kpk ksk ro nB ct o id,
    keygen_ind_cpa h LightSaber os = (kpk, ksk, ro) /\
    In ([], Ok (Some (fst (draw 32 r) ++ pk_to_bytes kpk))) l /\ In (nB ++ ct, Ok o) l /\ List.length nB = 32%nat /\
    ik_fin I s = Ret (id, expand P (decapsulate_ind_cpa LightSaber ct ksk) (str "output_key") 32).
Proof.
  intros P h r ssid mpk cert usk l s I H D.
  destruct (sigma_initiator_done_authentic P h r ssid mpk cert usk l s H D) as [os [kpk [ksk [ro [nB [ct [o [m [id [KG [I0 [I1 [_ [LN [FN _]]]]]]]]]]]]]]].
  exists os, kpk, ksk, ro, nB, ct, o, id. split; [exact KG|]. split; [exact I0|]. split; [exact I1|]. split; [exact LN|exact FN].
Qed.
Theorem sigma_responder_key : forall P h r ssid mpk cert usk l s,
  let I := IdSigmaR (fst mpk) P h in
  hist (ibke_machine I) (fst (ik_new I r ssid mpk cert usk Responder)) l s -> ik_done I s = true ->
  exists os kpk nA pkb ss ct ro id,
    indcpa_pk_from_bytes LightSaber pkb = Ret kpk /\ encapsulate_ind_cpa h LightSaber os kpk = (ss, ct, ro) /\
    In (nA ++ pkb, Ok (Some (fst (draw 32 r) ++ ct))) l /\ List.length nA = 32%nat /\
    ik_fin I s = Ret (id, expand P ss (str "output_key") 32).
Proof.
  intros P h r ssid mpk cert usk l s I H D.
  destruct (sigma_responder_done_authentic P h r ssid mpk cert usk l s H D) as [os [kpk [nA [pkb [ss [ct [ro [m [o [id [PK [EN [I0 [_ [LN [FN _]]]]]]]]]]]]]]]].
  exists os, kpk, nA, pkb, ss, ct, ro, id. split; [exact PK|]. split; [exact EN|]. split; [exact I0|]. split; [exact LN|exact FN].
Qed.

(* ---------------------------------------------------------------- certificates *)
(** What an enrolled user holds, for each protocol: the id, the user key, and the signature of
    the main key on both (in FG-IBKE-C a Schnorr signature). *)
Theorem certificates_exact :
  (forall P msk id cert usk, enrolled (IdSigDh P) msk id cert usk ->
     sdc_id cert = id /\ snd (sdc_upk cert) = x_pub P (snd usk) /\
     sdc_sig cert = sign P Ed25519 msk (id ++ fst (sdc_upk cert) ++ snd (sdc_upk cert))) /\
  (forall P G msk id cert usk, enrolled (IdHmqvC P G) msk id cert usk ->
     hmc_id cert = id /\ hmc_upk cert = g_base G usk /\
     hmc_sig cert = sign P Ed25519 msk (id ++ compress G (hmc_upk cert))) /\
  (forall P G msk id cert usk, enrolled (FgIbkeC P G) msk id cert usk ->
     fgc_id cert = id /\ exists x, fgc_X cert = g_base G x /\
       fgc_xhat cert = s_add G x (s_mul G (s_wide G (hash512 P ([2] ++ id ++ compress G (g_base G x)))) msk)) /\
  (forall ty P h msk id cert usk, fst msk = ty -> enrolled (IdSigmaR ty P h) msk id cert usk ->
     smc_id cert = id /\ fst (smc_upk cert) = ty /\ fst usk = ty /\
     smc_sig cert = (ty, sign P ty (snd msk) (id ++ snd (smc_upk cert)))).
Proof.
  split; [|split; [|split]].
  - intros P msk id cert usk [ru [upk [ru' [re [re' [GU EX]]]]]]. cbn [IdSigDh gen_user ik_extract] in *.
    unfold sd_gen_user in GU. unfold sd_extract in EX. destruct (sig_keygen P Ed25519 ru) as [[spk ssk] r1]. destruct (draw 32 r1) as [dsk r2].
    injection GU as <- <- _. injection EX as <- _. repeat split.
  - intros P G msk id cert usk [ru [upk [ru' [re [re' [GU EX]]]]]]. cbn [IdHmqvC gen_user ik_extract] in *.
    unfold hm_gen_user in GU. unfold hm_extract in EX. destruct (s_random G ru) as [u r1]. injection GU as <- <- _. injection EX as <- _. repeat split.
  - intros P G msk id cert usk [ru [upk [ru' [re [re' [GU EX]]]]]]. cbn [FgIbkeC gen_user ik_extract] in *.
    unfold fg_extract in EX. destruct (s_random G re) as [x r2]. injection EX as <- _. split; [reflexivity|]. exists x. repeat split.
  - intros ty P h msk id cert usk T [ru [upk [ru' [re [re' [GU EX]]]]]]. cbn [IdSigmaR gen_user ik_extract] in *.
    unfold sm_gen in GU. unfold sm_extract, t_sign in EX. destruct (sig_keygen P ty ru) as [[pk sk] r1].
    injection GU as <- <- _. injection EX as <- _. cbn [smc_id smc_upk smc_sig fst snd]. rewrite T. repeat split.
Qed.
(** A CHIP password file: X of a random exponent, Y the point of the password's hash, and the
    Schnorr-like scalar tying the id to both. *)
Theorem chip_pwfile_exact : forall P G r pw id,
  let x := fst (s_random G r) in
  let y := s_wide G (hash512 P ([1] ++ pw)) in
  let pf := chip_gen_pwfile P G r pw id in
  cp_X pf = g_base G x /\ cp_Y pf = g_base G y /\
  cp_xhat pf = s_add G x (s_mul G (s_wide G (hash512 P ([2] ++ id ++ compress G (g_base G x)))) y).
Proof. intros P G r pw id x y pf. unfold pf, chip_gen_pwfile, x. destruct (s_random G r) as [x0 r']. repeat split. Qed.

(* ---------------------------------------------------------------- the hypotheses are met *)
(** Completed histories exist: honest agreement produces one on each side. *)
Theorem agreement_gives_done_histories : forall I n ok, honest_agreement I n ok ->
  forall rm mpk msk rm' idI idR certI certR uskI uskR ssid rI rR tape,
    gen_main I rm = (mpk, msk, rm') -> List.length idI = 32%nat -> List.length idR = 32%nat ->
    enrolled I msk idI certI uskI -> enrolled I msk idR certR uskR -> ok tape ->
  exists lI sI lR sR,
    hist (ibke_machine I) (fst (ik_new I rI ssid mpk certI uskI Initiator)) lI sI /\ ik_done I sI = true /\
    hist (ibke_machine I) (fst (ik_new I rR ssid mpk certR uskR Responder)) lR sR /\ ik_done I sR = true.
Proof.
  intros I n ok A rm mpk msk rm' idI idR certI certR uskI uskR ssid rI rR tape GM LI LR EI ER OK.
  destruct (A rm mpk msk rm' idI idR certI certR uskI uskR ssid rI rR tape GM LI LR EI ER OK) as [msgs [sI [sR [k [HR [_ [_ [DI [DR _]]]]]]]]].
  destruct (drive_reach (ibke_machine I) (n + 2) Initiator tape (fst (ik_new I rI ssid mpk certI uskI Initiator))
    (fst (ik_new I rR ssid mpk certR uskR Responder)) []) as [RI RR].
  unfold honest_run in HR. rewrite HR in RI, RR. cbn [r_init r_resp] in RI, RR.
  apply reach_hist in RI. apply reach_hist in RR. destruct RI as [lI HI]. destruct RR as [lR HR'].
  exists lI, sI, lR, sR. auto.
Qed.
Example done_histories_meet :
  (exists mpk cert usk l s, hist (ibke_machine (IdSigDh toy_prims)) (fst (ik_new (IdSigDh toy_prims) (fun _ => 0) [7] mpk cert usk Initiator)) l s /\
     ik_done (IdSigDh toy_prims) s = true) /\
  (exists mpk cert usk l s, hist (ibke_machine (IdHmqvC toy_prims toy_group)) (fst (ik_new (IdHmqvC toy_prims toy_group) (fun _ => 0) [7] mpk cert usk Responder)) l s /\
     ik_done (IdHmqvC toy_prims toy_group) s = true) /\
  (exists mpk cert usk l s, hist (ibke_machine (FgIbkeC toy_prims toy_group)) (fst (ik_new (FgIbkeC toy_prims toy_group) (fun _ => 0) [7] mpk cert usk Initiator)) l s /\
     ik_done (FgIbkeC toy_prims toy_group) s = true).
Proof.
  assert (ID : List.length (repeat 1 32) = 32%nat) by reflexivity.
  split; [|split].
  - destruct (gen_main (IdSigDh toy_prims) (fun _ => 0)) as [[mpk msk] r'] eqn:GM.
    destruct (gen_user (IdSigDh toy_prims) (fun _ => 0)) as [[upk usk] r1] eqn:GU.
    destruct (ik_extract (IdSigDh toy_prims) (fun _ => 0) msk (repeat 1 32) upk) as [cert r2] eqn:EX.
    assert (E : enrolled (IdSigDh toy_prims) msk (repeat 1 32) cert usk) by (do 5 eexists; split; eassumption).
    destruct (agreement_gives_done_histories _ _ _ (sig_dh_agreement toy_prims (toy_sig_correct _) toy_dh_commutes)
      _ _ _ _ _ _ _ _ _ _ [7] (fun _ => 0) (fun _ => 0) (fun _ => (fun _ => 0, fun _ => 0)) GM ID ID E E Logic.I) as [lI [sI [lR [sR [H [D _]]]]]].
    exists mpk, cert, usk, lI, sI. auto.
  - destruct (gen_main (IdHmqvC toy_prims toy_group) (fun _ => 0)) as [[mpk msk] r'] eqn:GM.
    destruct (hm_enrolled_exists toy_prims toy_group msk (repeat 1 32)) as [cert [usk E]].
    destruct (agreement_gives_done_histories _ _ _ (hmqv_agreement toy_prims toy_group (toy_sig_correct _) toy_group_laws)
      _ _ _ _ _ _ _ _ _ _ [7] (fun _ => 0) (fun _ => 0) (fun _ => (fun _ => 0, fun _ => 0)) GM ID ID E E Logic.I) as [lI [sI [lR [sR [_ [_ [H D]]]]]]].
    exists mpk, cert, usk, lR, sR. auto.
  - destruct (gen_main (FgIbkeC toy_prims toy_group) (fun _ => 0)) as [[mpk msk] r'] eqn:GM.
    destruct (fg_enrolled_exists toy_prims toy_group msk (repeat 1 32)) as [cert [usk E]].
    destruct (agreement_gives_done_histories _ _ _ (fg_ibke_agreement toy_prims toy_group toy_group_laws)
      _ _ _ _ _ _ _ _ _ _ [7] (fun _ => 0) (fun _ => 0) (fun _ => (fun _ => 0, fun _ => 0)) GM ID ID E E Logic.I) as [lI [sI [lR [sR [H [D _]]]]]].
    exists mpk, cert, usk, lI, sI. auto.
Qed.
