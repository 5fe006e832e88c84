(** * PropsCake: what CAKE's messages say about the password, and what its key depends on (C71). *)
From Coq Require Import ZArith List Lia Bool String.
From Verif Require Import Base SaberPoly SaberKem Crypto Symmetric PropsSym Driver Pakes PropsPake IbkeSpec PropsSaber PropsSigDh PropsPanic
  PropsMatch PropsConv SaberWitness SigmaDil PropsSigma.
Import ListNotations.
Open Scope Z_scope.
Local Opaque bytes_of draw expand extract hmac hash256 keygen_ind_cpa indcpa_enc decapsulate_ind_cpa pk_to_bytes indcpa_pk_from_bytes ideal_cipher_encrypt ideal_cipher_decrypt.

(* ------------------------------------------------------------------ *)
(** ** Every string of the right size is a message under every password *)
(** The cipher: a bijection on the byte strings of one length, under every password. *)
Lemma xip_bytes : forall a b c, is_bytes a -> is_bytes b -> xor_in_place a b = Ret c -> is_bytes c.
Proof.
  intros a b c HA HB E. unfold xor_in_place, assert_ in E. destruct (List.length a =? List.length b)%nat; [|discriminate E].
  injection E as <-. apply xor_bytes_bytes; assumption.
Qed.
Lemma split_bytes : forall n b x y, is_bytes b -> split_at n b = Ret (x, y) -> is_bytes x /\ is_bytes y.
Proof. intros n b x y B E. apply split_at_inv in E. destruct E as [-> _]. apply is_bytes_app. exact B. Qed.
Lemma deck_bytes : forall P k a b i n, is_bytes (eval_deck P k a b i n).
Proof. intros. unfold eval_deck. apply bytes_of_bytes. Qed.
Lemma round_bytes : forall P k x y, is_bytes x ->
  (round_r0 P k x = Ret y \/ round_l P k x = Ret y \/ round_r P k x = Ret y \/ round_l0 P k x = Ret y) -> is_bytes y.
Proof.
  intros P k x y B [E|[E|[E|E]]]; [unfold round_r0 in E|unfold round_l in E|unfold round_r in E|unfold round_l0 in E]; obi E; injection E as <-;
  repeat match goal with
  | X : split_at _ ?b = Ret (_, _), Y : is_bytes ?b |- _ => apply (split_bytes _ _ _ _ Y) in X; destruct X
  | X : xor_in_place ?a _ = Ret _, Y : is_bytes ?a |- _ => apply (xip_bytes _ _ _ Y (deck_bytes _ _ _ _ _ _)) in X
  end; rewrite ?is_bytes_app; auto.
Qed.
Local Transparent ideal_cipher_encrypt ideal_cipher_decrypt.
Lemma ideal_dec_bytes : forall P d ssid pw x y, is_bytes x -> ideal_cipher_decrypt P d ssid pw x = Ret y -> is_bytes y.
Proof.
  intros P d ssid pw x y B E. unfold ideal_cipher_decrypt in E. rewrite cake_key_ok in E. cbn [obind] in E. unfold wide_block_decrypt in E. obi E.
  eapply round_bytes; [|left; exact E]. eapply round_bytes; [|right; left; eassumption]. eapply round_bytes; [|right; right; left; eassumption].
  eapply round_bytes; [exact B|right; right; right; eassumption].
Qed.
Lemma ideal_enc_bytes : forall P d ssid pw x y, is_bytes x -> ideal_cipher_encrypt P d ssid pw x = Ret y -> is_bytes y.
Proof.
  intros P d ssid pw x y B E. unfold ideal_cipher_encrypt in E. rewrite cake_key_ok in E. cbn [obind] in E. unfold wide_block_encrypt in E. obi E.
  eapply round_bytes; [|right; right; right; exact E]. eapply round_bytes; [|right; right; left; eassumption]. eapply round_bytes; [|right; left; eassumption].
  eapply round_bytes; [exact B|left; eassumption].
Qed.
Lemma ideal_dec_enc : forall P d ssid pw x, (32 <= List.length x)%nat ->
  exists y, ideal_cipher_decrypt P d ssid pw x = Ret y /\ ideal_cipher_encrypt P d ssid pw y = Ret x /\ List.length y = List.length x.
Proof.
  intros P d ssid pw x H. unfold ideal_cipher_encrypt, ideal_cipher_decrypt. rewrite cake_key_ok. cbn [obind].
  destruct (wbc_roundtrip_dec P (expand P (hash256 P pw) ([d] ++ ssid) 32) x H) as [y [A [B L]]]. eauto.
Qed.
Lemma ideal_enc_inj : forall P d ssid pw x y z, ideal_cipher_encrypt P d ssid pw x = Ret z -> ideal_cipher_encrypt P d ssid pw y = Ret z -> x = y.
Proof.
  intros P d ssid pw x y z. unfold ideal_cipher_encrypt. rewrite cake_key_ok. cbn [obind]. apply wide_block_injective.
Qed.
Local Opaque ideal_cipher_encrypt ideal_cipher_decrypt.

(** Every 672-byte string is, for every ssid and password, the encryption of exactly one
    string, and that string is the encoding of a LightSaber public key. *)
Theorem cake_first_message_fits_every_password : forall P ssid pw m, is_bytes m -> List.length m = 672%nat ->
  exists b pk, ideal_cipher_encrypt P 0 ssid pw b = Ret m /\ (forall b', ideal_cipher_encrypt P 0 ssid pw b' = Ret m -> b' = b) /\
    ideal_cipher_decrypt P 0 ssid pw m = Ret b /\ is_bytes b /\ List.length b = 672%nat /\ indcpa_pk_from_bytes LightSaber b = Ret pk /\ pk_to_bytes pk = b.
Proof.
  intros P ssid pw m B L. destruct (ideal_dec_enc P 0 ssid pw m) as [b [D [E LB]]]; [lia|].
  pose proof (ideal_dec_bytes _ _ _ _ _ _ B D) as BB. destruct (light_pk_parse b) as [pk PK]; [lia|].
  exists b, pk. split; [exact E|]. split; [intros b' E'; exact (ideal_enc_inj _ _ _ _ _ _ _ E' E)|]. split; [exact D|]. split; [exact BB|]. split; [lia|]. split; [exact PK|].
  exact (proj1 (light_pk_canonical b pk BB PK)).
Qed.
(** Every 736-byte string is, for every ssid and password, the encryption of exactly one
    ciphertext. *)
Theorem cake_second_message_fits_every_password : forall P ssid pw m, is_bytes m -> List.length m = 736%nat ->
  exists ct, ideal_cipher_encrypt P 1 ssid pw ct = Ret m /\ (forall ct', ideal_cipher_encrypt P 1 ssid pw ct' = Ret m -> ct' = ct) /\
    ideal_cipher_decrypt P 1 ssid pw m = Ret ct /\ is_bytes ct /\ ciphertext_from_bytes LightSaber ct = Ret (Ok ct).
Proof.
  intros P ssid pw m B L. destruct (ideal_dec_enc P 1 ssid pw m) as [ct [D [E LB]]]; [lia|].
  exists ct. split; [exact E|]. split; [intros b' E'; exact (ideal_enc_inj _ _ _ _ _ _ _ E' E)|]. split; [exact D|]. split; [exact (ideal_dec_bytes _ _ _ _ _ _ B D)|].
  unfold ciphertext_from_bytes, newtype_from_bytes. rewrite light_ct_bytes, LB, L, Nat.eqb_refl. reflexivity.
Qed.

(* ------------------------------------------------------------------ *)
(** ** The exact log of a session *)
Section Log.
Variables (P : prims) (h : saber_prims) (ssid pw : bytes).
Local Notation K := (CakePake P h).
(** What an initiator has done: nothing; sent an encrypted fresh key; decrypted a second
    message and decapsulated. *)
Inductive cake_I_did : log (pake_machine K) -> option bytes -> Prop :=
| cake_I_0 : cake_I_did [] None
| cake_I_1 : forall os pk sk r1 m1, keygen_ind_cpa h LightSaber os = (pk, sk, r1) ->
    ideal_cipher_encrypt P 0 ssid pw (pk_to_bytes pk) = Ret m1 -> cake_I_did [([], Ok (Some m1))] None
| cake_I_2 : forall os pk sk r1 m1 m2 ct, keygen_ind_cpa h LightSaber os = (pk, sk, r1) ->
    ideal_cipher_encrypt P 0 ssid pw (pk_to_bytes pk) = Ret m1 ->
    List.length m2 = 736%nat -> ideal_cipher_decrypt P 1 ssid pw m2 = Ret ct ->
    cake_I_did [([], Ok (Some m1)); (m2, Ok None)] (Some (decapsulate_ind_cpa LightSaber ct sk)).
(** What a responder has done: nothing; drawn a key and coins, and encrypted the key to what the
    received message decrypts to. *)
Inductive cake_R_did : log (pake_machine K) -> option bytes -> Prop :=
| cake_R_0 : cake_R_did [] None
| cake_R_1 : forall os r1 r2 m1 b pk key coins m2, List.length m1 = 672%nat -> ideal_cipher_decrypt P 0 ssid pw m1 = Ret b -> indcpa_pk_from_bytes LightSaber b = Ret pk ->
    draw 32 os = (key, r1) -> draw 32 r1 = (coins, r2) -> ideal_cipher_encrypt P 1 ssid pw (indcpa_enc h LightSaber key coins pk) = Ret m2 ->
    cake_R_did [(m1, Ok (Some m2))] (Some key).
Definition cake_did (rl : role) : log (pake_machine K) -> option bytes -> Prop := match rl with Initiator => cake_I_did | Responder => cake_R_did end.
Local Definition inv (rl : role) (l : log (pake_machine K)) (s : cake) : Prop :=
  ck_password s = pw /\ ck_ssid s = ssid /\ cake_did rl l (ck_key s) /\ ck_done s = match ck_key s with Some _ => true | None => false end /\
  ((l = [] /\ ck_step s = first_step rl) \/
   (rl = Initiator /\ ck_step s = 2%nat /\ exists os pk sk r1 m1, keygen_ind_cpa h LightSaber os = (pk, sk, r1) /\ ideal_cipher_encrypt P 0 ssid pw (pk_to_bytes pk) = Ret m1 /\
      l = [([], Ok (Some m1))] /\ ck_sk s = Some sk) \/
   (3 <= ck_step s)%nat).
Lemma cake_inv : forall rl r s0 r' l s, pk_new K r ssid pw rl = Ret (s0, r') -> hist (pake_machine K) s0 l s -> inv rl l s.
Proof.
  intros rl r s0 r' l s N H. cbn [CakePake pk_new] in N. unfold cake_new in N. injection N as <- _.
  induction H as [|l s rr m s' o H IH E].
  - unfold inv. cbn [ck_password ck_ssid ck_key ck_done ck_step]. repeat (split; [reflexivity|]). split; [destruct rl; constructor|]. split; [reflexivity|]. left. auto.
  - destruct IH as [EP [ES [DD [DN ST]]]]. cbn [pake_machine m_run CakePake pk_run] in E. unfold cake_run in E.
    destruct ST as [[-> ST]|[[-> [ST [os [pk [sk [r1 [m1 [KG [EN [-> SK]]]]]]]]]]|ST]].
    + assert (KN : ck_key s = None) by (destruct rl; inversion DD; reflexivity). rewrite ST in E. destruct rl; cbn [first_step] in E.
      * unfold assert_ in E. destruct (List.length m =? 0)%nat eqn:LM; [|discriminate E]. apply Nat.eqb_eq in LM. destruct m; [|discriminate LM].
        destruct (keygen_ind_cpa h LightSaber (snd rr)) as [[pk sk] r1] eqn:KG. rewrite EP, ES, KN in E.
        unfold copy_exact in E. destruct (assert_ _ _) as [b0|] eqn:CE in E; cbn [obind] in E; [|discriminate E].
        assert (b0 = pk_to_bytes pk) by (unfold assert_ in CE; destruct (_ =? _)%nat; [injection CE; auto|discriminate CE]). subst b0.
        destruct (ideal_cipher_encrypt P 0 ssid pw (pk_to_bytes pk)) as [m1|] eqn:EN; cbn [obind] in E; [|discriminate E].
        injection E as <- <-. unfold inv. cbn [ck_password ck_ssid ck_key ck_done ck_step ck_sk app]. split; [reflexivity|]. split; [reflexivity|].
        rewrite KN in DN. split; [exact (cake_I_1 _ _ _ _ _ KG EN)|]. split; [exact DN|]. right. left. split; [reflexivity|]. split; [lia|]. exists (snd rr), pk, sk, r1, m1. auto.
      * unfold copy_exact, assert_ in E. destruct (List.length m =? INDCPA_PUBLICKEYBYTES LightSaber)%nat eqn:LM; [|discriminate E]. rewrite light_pk_bytes in LM. apply Nat.eqb_eq in LM. cbn [obind] in E. rewrite EP, ES in E.
        destruct (ideal_cipher_decrypt P 0 ssid pw m) as [b|] eqn:DC; cbn [obind] in E; [|discriminate E].
        destruct (indcpa_pk_from_bytes LightSaber b) as [pk|] eqn:PK; cbn [obind] in E; [|discriminate E].
        unfold encapsulate_ind_cpa in E. change KEYBYTES with 32%nat in E. destruct (draw 32 (snd rr)) as [key r1] eqn:D1. destruct (draw 32 r1) as [coins r2] eqn:D2.
        destruct (ideal_cipher_encrypt P 1 ssid pw (indcpa_enc h LightSaber key coins pk)) as [m2|] eqn:EN; cbn [obind] in E; [|discriminate E].
        injection E as <- <-. unfold inv. cbn [ck_password ck_ssid ck_key ck_done ck_step ck_sk app]. split; [reflexivity|]. split; [reflexivity|].
        split; [exact (cake_R_1 _ _ _ _ _ _ _ _ _ LM DC PK D1 D2 EN)|]. split; [reflexivity|]. right. right. lia.
    + rewrite ST in E. destruct (ciphertext_from_bytes LightSaber m) as [q|] eqn:CF; cbn [obind] in E; [|discriminate E].
      assert (LM : List.length m = 736%nat /\ (q = Ok m \/ exists e, q = Err e)).
      { revert CF E. unfold ciphertext_from_bytes, newtype_from_bytes. rewrite light_ct_bytes. destruct (List.length m =? 736)%nat eqn:LM; cbn [negb assert_].
        - intros CF _. injection CF as <-. apply Nat.eqb_eq in LM. auto.
        - intros CF E. injection CF as <-. discriminate E. }
      destruct LM as [LM [-> | [e ->]]]; cbn [unwrap_ok obind] in E; [|discriminate E]. rewrite EP, ES, SK in E.
      destruct (ideal_cipher_decrypt P 1 ssid pw m) as [ct|] eqn:DC; cbn [obind unwrap] in E; [|discriminate E].
      injection E as <- <-. unfold inv. cbn [ck_password ck_ssid ck_key ck_done ck_step ck_sk app]. split; [reflexivity|]. split; [reflexivity|].
      split; [exact (cake_I_2 _ _ _ _ _ _ _ KG EN LM DC)|]. split; [reflexivity|]. right. right. lia.
    + destruct (ck_step s) as [|[|[|n]]]; try lia. discriminate E.
Qed.
(** Every history of a session is one of these, and the session has a key exactly when done. *)
Theorem cake_session_exact : forall rl r s0 r' l s, pk_new K r ssid pw rl = Ret (s0, r') -> hist (pake_machine K) s0 l s ->
  exists k, cake_did rl l k /\ pk_fin K s = unwrap k /\ (pk_done K s = true <-> k <> None).
Proof.
  intros rl r s0 r' l s N H. destruct (cake_inv _ _ _ _ _ _ N H) as [_ [_ [DD [DN _]]]]. exists (ck_key s). split; [exact DD|]. split; [reflexivity|].
  cbn [CakePake pk_done]. rewrite DN. destruct (ck_key s); split; congruence.
Qed.
End Log.

(** A responder's key: the first 32 bytes it draws, whatever its ssid and password and whatever
    message it received. *)
Theorem cake_responder_key_is_its_draw : forall P h r ssid pw s0 r' os m s o, pk_new (CakePake P h) r ssid pw Responder = Ret (s0, r') ->
  pk_run (CakePake P h) s0 os m = Ret (s, o) -> pk_fin (CakePake P h) s = Ret (fst (draw 32 os)).
Proof.
  intros P h r ssid pw s0 r' os m s o N E. cbn [CakePake pk_new] in N. unfold cake_new in N. injection N as <- _.
  cbn [CakePake pk_run] in E. unfold cake_run in E. cbn [ck_step first_step] in E.
  unfold encapsulate_ind_cpa in E. change KEYBYTES with 32%nat in E. destruct (draw 32 os) as [key r1]. destruct (draw 32 r1) as [coins r2]. obi E. injection E as <- _. reflexivity.
Qed.
Theorem cake_responder_key_ignores_peer : forall P h r ssid pw s0 q os m s o r' ssid' pw' s0' q' m' s' o',
  pk_new (CakePake P h) r ssid pw Responder = Ret (s0, q) -> pk_run (CakePake P h) s0 os m = Ret (s, o) ->
  pk_new (CakePake P h) r' ssid' pw' Responder = Ret (s0', q') -> pk_run (CakePake P h) s0' os m' = Ret (s', o') ->
  pk_fin (CakePake P h) s = pk_fin (CakePake P h) s'.
Proof.
  intros. rewrite (cake_responder_key_is_its_draw P h r ssid pw s0 q os m s o); [|assumption|assumption].
  symmetry. exact (cake_responder_key_is_its_draw P h r' ssid' pw' s0' q' os m' s' o' H1 H2).
Qed.

(** The messages of an initiator and of a responder, whatever was delivered to them, fit every
    password: some public key and some ciphertext encrypt to them. *)
Theorem cake_transcript_fits_every_password : forall P h r ssid pw rl s0 r' (l : log (pake_machine (CakePake P h))) s m out,
  pk_new (CakePake P h) r ssid pw rl = Ret (s0, r') -> hist (pake_machine (CakePake P h)) s0 l s -> In (m, Ok (Some out)) l ->
  forall ssid' pw', match rl with
  | Initiator => List.length out = 672%nat /\ exists pk, ideal_cipher_encrypt P 0 ssid' pw' (pk_to_bytes pk) = Ret out
  | Responder => List.length out = 736%nat /\ exists ct, ideal_cipher_encrypt P 1 ssid' pw' ct = Ret out
  end.
Proof.
  intros P h r ssid pw rl s0 r' l s m out N H IN ssid' pw'. destruct (cake_session_exact _ _ _ _ _ _ _ _ _ _ N H) as [k [DD _]].
  assert (II : forall os pk sk r1, keygen_ind_cpa h LightSaber os = (pk, sk, r1) -> ideal_cipher_encrypt P 0 ssid pw (pk_to_bytes pk) = Ret out ->
    List.length out = 672%nat /\ exists pk', ideal_cipher_encrypt P 0 ssid' pw' (pk_to_bytes pk') = Ret out).
  { intros os pk sk r1 KG EN. assert (L : List.length out = 672%nat).
    { pose proof (keygen_len_light _ _ _ _ _ KG) as LP. destruct (ideal_roundtrip P 0 ssid pw (pk_to_bytes pk)) as [y [EY [_ LY]]]; [lia|]. rewrite EY in EN. injection EN as <-. lia. }
    split; [exact L|]. assert (B : is_bytes out) by exact (ideal_enc_bytes _ _ _ _ _ _ (kem_key_bytes _ _ _ _ _ KG) EN).
    destruct (cake_first_message_fits_every_password P ssid' pw' out B L) as [b [pk' [E1 [_ [_ [_ [_ [_ E2]]]]]]]]. exists pk'. rewrite E2. exact E1. }
  destruct rl; cbn [cake_did] in DD.
  - destruct DD as [|os pk sk r1 m1 KG EN|os pk sk r1 m1 m2 ct KG EN LM DC].
    + contradiction IN.
    + destruct IN as [IN|[]]. injection IN as <- <-. exact (II _ _ _ _ KG EN).
    + destruct IN as [IN|[IN|[]]]; [injection IN as <- <-; exact (II _ _ _ _ KG EN)|discriminate IN].
  - destruct DD as [|os r1 r2 m1 b pk key coins m2 LM DC PK D1 D2 EN]; [contradiction IN|].
    destruct IN as [IN|[]]. injection IN as <- <-.
    assert (LC : List.length (indcpa_enc h LightSaber key coins pk) = 736%nat).
    { apply (encaps_len_light h os pk key _ r2). unfold encapsulate_ind_cpa. change KEYBYTES with 32%nat. rewrite D1, D2. reflexivity. }
    assert (L : List.length m2 = 736%nat).
    { destruct (ideal_roundtrip P 1 ssid pw (indcpa_enc h LightSaber key coins pk)) as [y [EY [_ LY]]]; [lia|]. rewrite EY in EN. injection EN as <-. lia. }
    split; [exact L|]. destruct (ideal_dec_enc P 1 ssid' pw' m2) as [ct [_ [E _]]]; [lia|]. exists ct. exact E.
Qed.
(** Concrete case: a responder that receives 672 zero bytes answers. *)
Example cake_responder_meets : exists s0 q s out, pk_new (CakePake toy_prims light_wit) (fun _ => 1) [7] [9] Responder = Ret (s0, q) /\
  pk_run (CakePake toy_prims light_wit) s0 (fun _ => 3) (repeat 0 672) = Ret (s, Ok (Some out)) /\
  hist (pake_machine (CakePake toy_prims light_wit)) s0 [(repeat 0 672, Ok (Some out))] s.
Proof.
  destruct (pk_new (CakePake toy_prims light_wit) (fun _ => 1) [7] [9] Responder) as [[s0 q]|] eqn:N; [|discriminate N].
  destruct (pk_run (CakePake toy_prims light_wit) s0 (fun _ => 3) (repeat 0 672)) as [[s o]|] eqn:E.
  - pose proof (hist_run (pake_machine (CakePake toy_prims light_wit)) s0 [] s0 (fun _ => 3, fun _ => 3) (repeat 0 672) s o (hist_init _ _) E) as H.
    destruct (cake_session_exact _ _ _ _ _ _ _ _ _ _ N H) as [k [DD _]]. cbn [cake_did app] in DD. inversion DD as [|os r1 r2 m1 b pk key coins m2 LM DC PK D1 D2 EN]. subst.
    exists s0, q, s, m2. auto.
  - apply (cake_run_panics_iff _ _ _ _ _ _ _ _ [] _ _ _ N (hist_init _ _)) in E. exfalso. cbn [next_step] in E. exact (E (repeat_length 0 672)).
Qed.
