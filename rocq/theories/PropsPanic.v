(** * PropsPanic: exactly which calls to [run] panic, in every reachable state (C63).

    A panic in [run] is a denial of service that any peer can trigger, so the exact set of
    messages that cause it is part of the contract.  The theorems quantify over every log of
    calls ([hist]: arbitrary messages and randomness, failed calls included) and every next
    message; the condition speaks of the number of successful calls so far and of the bytes of
    the message, not of the session's fields. *)
From Coq Require Import ZArith List Lia Bool String.
From Verif Require Import Base SaberPoly SaberCodec SaberCodec3 SaberNoise SaberKem SaberVec SaberFacts Crypto Symmetric Driver Pakes PropsSym PropsPake
  Ibkes IbkeSpec PropsSigDh PropsHmqv PropsFg PropsSigma IbkeToy PropsSaber.
Import ListNotations.
Open Scope Z_scope.

(* ------------------------------------------------------------------ *)
(** ** Specification *)

(** How many of the calls so far returned Ok. *)
Fixpoint succeeded {M : machine} (l : log M) : nat :=
  match l with
  | [] => 0
  | (_, Ok _) :: r => S (succeeded r)
  | (_, Err _) :: r => succeeded r
  end%nat.
(** Whether some call so far returned an error. *)
Definition failed_once {M : machine} (l : log M) : Prop := exists m e, In (m, Err e) l.
(** The protocol step that the next call executes: the initiator executes steps 0, 2, 4, ...,
    the responder 1, 3, 5, ...; only a successful call moves on. *)
Definition next_step {M : machine} (rl : role) (l : log M) : nat := (first_step rl + 2 * succeeded l)%nat.
(** The [n] bytes of a message from offset [off]. *)
Definition slice (off n : nat) (m : bytes) : bytes := firstn n (skipn off m).
(** The message without its last [n] bytes. *)
Definition but_last (n : nat) (m : bytes) : bytes := firstn (List.length m - n) m.

(** CAKE: nothing, then a 672-byte block, then a 736-byte block. *)
Definition cake_bad (step : nat) (m : bytes) : Prop :=
  match step with
  | 0 => m <> []
  | 1 => List.length m <> 672
  | 2 => List.length m <> 736
  | _ => True
  end%nat.
(** KC-SPAKE2, [st] the SPAKE2 state drawn at creation: the crate refuses the peer's message,
    or gives a key too short for the KDF; the third message must also hold a MAC, and a
    session that has refused a MAC cannot be used again. *)
Definition kc_refuses (S : spake_crate) (st : SPST S) (msg : bytes) : Prop :=
  match sp_finish S st msg with Some k => List.length k < 32 | None => True end%nat.
Definition kc_bad {M : machine} (S : spake_crate) (st : SPST S) (l : log M) (step : nat) (m : bytes) : Prop :=
  match step with
  | 0 => m <> []
  | 1 => kc_refuses S st m
  | 2 => List.length m < 32 \/ failed_once l \/ kc_refuses S st (but_last 32 m)
  | 3 => False
  | _ => True
  end%nat.
(** ID-SIG-DH: 256 bytes (ephemeral key 32, signature 64, certificate 160), of which bytes
    128 to 159 are a signature key of the crate. *)
Definition sig_dh_bad (P : prims) (step : nat) (m : bytes) : Prop :=
  match step with
  | 0 => m <> []
  | 1 | 2 => List.length m <> 256 \/ p_pk_valid P Ed25519 (slice 128 32 m) = false
  | _ => True
  end%nat.
(** ID-HMQV-C: 160 bytes with points at 0 and 64; 192 bytes with points at 0 and 96. *)
Definition not_a_point (G : group) (b : bytes) : Prop := g_decompress G b = None.
Definition hmqv_bad (G : group) (step : nat) (m : bytes) : Prop :=
  match step with
  | 0 => m <> []
  | 1 => List.length m <> 160 \/ not_a_point G (slice 0 32 m) \/ not_a_point G (slice 64 32 m)
  | 2 => List.length m <> 192 \/ not_a_point G (slice 0 32 m) \/ not_a_point G (slice 96 32 m)
  | 3 => False
  | _ => True
  end%nat.
(** FG-IBKE-C: 96 bytes with points at 32 and 64; at least 96 with points there. *)
Definition fg_bad (G : group) (step : nat) (m : bytes) : Prop :=
  match step with
  | 0 => m <> []
  | 1 => List.length m <> 96 \/ not_a_point G (slice 32 32 m) \/ not_a_point G (slice 64 32 m)
  | 2 => List.length m < 96 \/ not_a_point G (slice 32 32 m) \/ not_a_point G (slice 64 32 m)
  | 3 => False
  | _ => True
  end%nat.
(** ID-SIGMA-R: 704 bytes (nonce and KEM key), 768 bytes (nonce and ciphertext), then a sealed
    message under [ek]: shorter than nonce and tag, or authentic but with a plaintext shorter
    than signature and certificate, or (Ed25519) with a key in the certificate, the 32 bytes
    before the last 64, that the crate refuses. *)
Definition sigma_bad_plain (P : prims) (ty : scheme) (pt : bytes) : Prop :=
  match ty with
  | Dilithium2 => List.length pt < 2420 + 3764
  | Ed25519 => List.length pt < 64 + 128 \/ p_pk_valid P Ed25519 (slice (List.length pt - 96) 32 pt) = false
  end%nat.
Definition sigma_bad (P : prims) (ty : scheme) (ek : bytes) (step : nat) (m : bytes) : Prop :=
  match step with
  | 0 => m <> []
  | 1 => List.length m <> 704
  | 2 => List.length m <> 768
  | 3 | 4 => List.length m < 44 \/ exists pt, auth_decrypt P ek m = Ret (Ok pt) /\ sigma_bad_plain P ty pt
  | _ => True
  end%nat.

(* ------------------------------------------------------------------ *)
(** ** The step is determined by the log *)
Lemma succeeded_app : forall M (a b : log M), succeeded (a ++ b) = (succeeded a + succeeded b)%nat.
Proof.
  intros M a b. induction a as [|[m [o|e]] a IH]; cbn [app succeeded]; [reflexivity| |exact IH].
  rewrite IH. reflexivity.
Qed.
Lemma step_of_log : forall M step rl s0, disciplined M step rl s0 -> step s0 = first_step rl ->
  forall l s, hist M s0 l s -> step s = next_step rl l.
Proof.
  intros M step rl s0 D S0 l s H. unfold next_step. induction H as [|l s rr m s' o H IH E].
  - rewrite S0. cbn [succeeded]. lia.
  - destruct (D s (hist_reach _ _ _ _ H)) as [_ [DO [DE _]]]. rewrite succeeded_app. cbn [succeeded].
    destruct o as [o|e]; [rewrite (DO _ _ _ _ E)|rewrite (DE _ _ _ _ E)]; lia.
Qed.
Lemma obind_panic : forall A B (x : outcome A) (f : A -> outcome B),
  obind x f = Panic <-> x = Panic \/ exists a, x = Ret a /\ f a = Panic.
Proof.
  intros A B [a|] f; cbn [obind]; split; intro H; auto.
  - right. exists a. auto.
  - destruct H as [H|[b [H1 H2]]]; [discriminate|]. injection H1 as ->. exact H2.
Qed.
Lemma nil_iff : forall (m : bytes), (List.length m =? 0)%nat = true <-> m = [].
Proof. intros [|x m]; cbn; split; intro H; try reflexivity; discriminate. Qed.
Lemma nil_assert : forall A (m : bytes) (k : outcome A), k <> Panic ->
  (assert_ (List.length m =? 0)%nat k = Panic <-> m <> []).
Proof.
  intros A m k K. destruct m as [|x m]; cbn [List.length Nat.eqb assert_]; split; intro H; try congruence.
Qed.
Local Opaque INDCPA_PUBLICKEYBYTES BYTES_CCA_DEC POLYVECCOMPRESSEDBYTES SEEDBYTES
  keygen_ind_cpa encapsulate_ind_cpa decapsulate_ind_cpa wide_block_encrypt wide_block_decrypt.
Lemma copy_exact_panic : forall n b, copy_exact n b = Panic <-> List.length b <> n.
Proof.
  intros n b. unfold copy_exact, assert_. destruct (List.length b =? n)%nat eqn:E.
  - apply Nat.eqb_eq in E. split; intro H; [discriminate|contradiction].
  - apply Nat.eqb_neq in E. tauto.
Qed.
Lemma ideal_enc_total : forall P d ssid pw x, (32 <= List.length x)%nat ->
  exists y, ideal_cipher_encrypt P d ssid pw x = Ret y.
Proof. intros P d ssid pw x H. destruct (ideal_roundtrip P d ssid pw x H) as [y [E _]]. eauto. Qed.
Lemma ideal_dec_total : forall P d ssid pw x, (32 <= List.length x)%nat ->
  exists y, ideal_cipher_decrypt P d ssid pw x = Ret y /\ List.length y = List.length x.
Proof.
  intros P d ssid pw x H. unfold ideal_cipher_decrypt. rewrite cake_key_ok. cbn [obind].
  destruct (wbc_roundtrip_dec P (expand P (hash256 P pw) ([d] ++ ssid) 32) x H) as [y [E [_ L]]]. eauto.
Qed.
Lemma light_split : INDCPA_PUBLICKEYBYTES LightSaber = (POLYVECCOMPRESSEDBYTES LightSaber + SEEDBYTES)%nat.
Proof. vm_compute. reflexivity. Qed.
Lemma light_pk_parse : forall b, List.length b = 672%nat -> exists pk, indcpa_pk_from_bytes LightSaber b = Ret pk.
Proof.
  intros b L. pose proof light_split as LS. rewrite light_pk_bytes in LS. unfold indcpa_pk_from_bytes, split_at.
  destruct (POLYVECCOMPRESSEDBYTES LightSaber <=? List.length b)%nat eqn:E.
  - cbn [obind]. rewrite skipn_length, L.
    replace (672 - POLYVECCOMPRESSEDBYTES LightSaber =? SEEDBYTES)%nat with true; [cbn [assert_]; eauto|].
    symmetry. apply Nat.eqb_eq. lia.
  - apply Nat.leb_gt in E. lia.
Qed.
Lemma light_pk_parse_panic : forall b, indcpa_pk_from_bytes LightSaber b = Panic <-> List.length b <> 672%nat.
Proof.
  intro b. split.
  - intros H L. destruct (light_pk_parse b L) as [pk E]. congruence.
  - intro L. pose proof light_split as LS. rewrite light_pk_bytes in LS. unfold indcpa_pk_from_bytes, split_at.
    destruct (POLYVECCOMPRESSEDBYTES LightSaber <=? List.length b)%nat eqn:E; [|reflexivity].
    cbn [obind]. rewrite skipn_length. apply Nat.leb_le in E.
    replace (List.length b - POLYVECCOMPRESSEDBYTES LightSaber =? SEEDBYTES)%nat with false; [reflexivity|].
    symmetry. apply Nat.eqb_neq. lia.
Qed.

(* ------------------------------------------------------------------ *)
(** ** CAKE *)
Theorem cake_run_panics_iff : forall P h r ssid pw rl s0 r' l s os m,
  pk_new (CakePake P h) r ssid pw rl = Ret (s0, r') ->
  hist (pake_machine (CakePake P h)) s0 l s ->
  (pk_run (CakePake P h) s os m = Panic <-> cake_bad (next_step rl l) m).
Proof.
  intros P h r ssid pw rl s0 r' l s os m N H.
  assert (ST : ck_step s = next_step rl l).
  { apply (step_of_log (pake_machine (CakePake P h)) ck_step rl s0 (cake_steps P h r ssid pw rl s0 r' N)); [|exact H].
    cbn in N. injection N as <- _. reflexivity. }
  assert (SK : ck_step s = 2%nat -> exists sk, ck_sk s = Some sk).
  { clear ST m. induction H as [|l s rr m s' o H IH E].
    - cbn in N. injection N as <- _. cbn. destruct rl; discriminate.
    - cbn [pake_machine CakePake m_run pk_run m_st PST] in *. unfold cake_run in E.
      destruct (ck_step s) as [|[|[|n]]] eqn:ES; obi E; injection E as <- _; cbn [ck_step ck_sk]; try lia. eauto. }
  cbn [CakePake pk_run]. unfold cake_run. rewrite <- ST. destruct (ck_step s) as [|[|[|n]]]; cbn [cake_bad].
  - apply nil_assert. destruct (keygen_ind_cpa h LightSaber os) as [[pk sk] ro] eqn:KG.
    apply keygen_len_light in KG. unfold copy_exact. rewrite light_pk_bytes, KG, Nat.eqb_refl. cbn [assert_ obind].
    destruct (ideal_enc_total P 0 (ck_ssid s) (ck_password s) (pk_to_bytes pk)) as [y ->]; [rewrite KG; lia|].
    cbn [obind]. discriminate.
  - rewrite light_pk_bytes. unfold copy_exact, assert_. destruct (List.length m =? 672)%nat eqn:E.
    + apply Nat.eqb_eq in E. cbn [obind]. destruct (ideal_dec_total P 0 (ck_ssid s) (ck_password s) m) as [y [-> LY]]; [lia|].
      cbn [obind]. destruct (light_pk_parse y) as [pk ->]; [lia|]. cbn [obind].
      destruct (encapsulate_ind_cpa h LightSaber os pk) as [[ss ct] ro] eqn:EN. apply encaps_len_light in EN.
      destruct (ideal_enc_total P 1 (ck_ssid s) (ck_password s) ct) as [z ->]; [lia|]. cbn [obind].
      split; [discriminate|contradiction].
    + apply Nat.eqb_neq in E. cbn [obind]. tauto.
  - unfold ciphertext_from_bytes, newtype_from_bytes. rewrite light_ct_bytes.
    destruct (List.length m =? 736)%nat eqn:E; cbn [negb assert_ obind unwrap_ok].
    + apply Nat.eqb_eq in E. destruct (ideal_dec_total P 1 (ck_ssid s) (ck_password s) m) as [y [-> LY]]; [lia|].
      destruct (SK eq_refl) as [sk ->]. cbn [obind unwrap]. split; [discriminate|contradiction].
    + apply Nat.eqb_neq in E. tauto.
  - tauto.
Qed.

(* ------------------------------------------------------------------ *)
(** ** CPace *)
(** The first two steps: the crate is called with the base64 password, the two constant ids,
    the ssid and the randomness of this very call. *)
Theorem cpace_run_panics_iff : forall C r ssid pw rl s0 r' l s os m,
  pk_new (CpacePake C) r ssid pw rl = Ret (s0, r') ->
  hist (pake_machine (CpacePake C)) s0 l s ->
  let step1 := cp_step1 C (b64_encode pw) (str "latke_cpace_initiator") (str "latke_cpace_responder") ssid in
  let step2 p := cp_step2 C p (b64_encode pw) (str "latke_cpace_initiator") (str "latke_cpace_responder") ssid in
  match next_step rl l with
  | 0 => pk_run (CpacePake C) s os m = Panic <-> m <> [] \/ step1 os = None
  | 1 => pk_run (CpacePake C) s os m = Panic <-> List.length m <> 48 \/ step2 m os = None
  | 2 => exists os0 st, step1 os0 = Some st /\ l = [([], Ok (Some (cpace_packet1 C st)))] /\
      forall os m, pk_run (CpacePake C) s os m = Panic <-> List.length m <> 32 \/ cp_step3 C st m = None
  | _ => pk_run (CpacePake C) s os m = Panic
  end%nat.
Proof.
  intros C r ssid pw rl s0 r' l s os m N H step1 step2.
  assert (ST : cp_step s = next_step rl l).
  { apply (step_of_log (pake_machine (CpacePake C)) cp_step rl s0 (cpace_steps C r ssid pw rl s0 r' N)); [|exact H].
    cbn in N. injection N as <- _. reflexivity. }
  assert (IV : cp_ssid s = ssid /\ cp_password s = b64_encode pw /\ (cp_step s = 0%nat -> l = []) /\
    (cp_step s = 2%nat -> exists os0 st, step1 os0 = Some st /\ cp_state s = Some st /\ l = [([], Ok (Some (cpace_packet1 C st)))])).
  { clear ST m. induction H as [|l s rr m s' o H IH E].
    - cbn in N. injection N as <- _. cbn. repeat split. destruct rl; discriminate.
    - destruct IH as [I1 [I2 [I0 I3]]]. cbn [pake_machine CpacePake m_run pk_run m_st PST] in *. unfold cpace_run in E.
      destruct (cp_step s) as [|[|[|n]]] eqn:ES; obi E; injection E as <- <-; cbn [cp_step cp_ssid cp_password cp_state];
      (split; [exact I1|split; [exact I2|split; [lia|]]]); try lia.
      intros _. rewrite I1, I2 in E1. destruct m as [|x m]; [|discriminate E0].
      match type of E1 with unwrap ?u = Ret ?a => destruct u eqn:EU; [|discriminate E1] end.
      injection E1 as ->. eexists _, _. split; [exact EU|]. split; [reflexivity|]. rewrite (I0 eq_refl). reflexivity. }
  destruct IV as [I1 [I2 [_ I3]]].
  cbn [CpacePake pk_run]. unfold cpace_run. rewrite I1, I2. unfold step1, step2 in *. clear step1 step2.
  fold PROTO_ID_INIT PROTO_ID_RESP in *.
  rewrite <- ST. destruct (cp_step s) as [|[|[|n]]].
  - destruct m as [|x m]; cbn [List.length Nat.eqb assert_].
    + destruct (cp_step1 _ _ _ _ _ os) eqn:E; cbn [unwrap obind]; split; intro Q; try discriminate Q; auto.
      destruct Q as [Q|Q]; [congruence|discriminate].
    + split; intro Q; [left; discriminate|reflexivity].
  - unfold copy_exact, assert_. destruct (List.length m =? 48)%nat eqn:E.
    + apply Nat.eqb_eq in E. cbn [obind].
      destruct (cp_step2 _ m _ _ _ _ os) as [[k p]|]; cbn [unwrap obind]; split; intro Q; try discriminate Q; auto.
      destruct Q as [Q|Q]; [contradiction|discriminate].
    + apply Nat.eqb_neq in E. cbn [obind]. tauto.
  - destruct (I3 eq_refl) as [os0 [st [E1 [E2 E3]]]]. exists os0, st. split; [exact E1|]. split; [exact E3|].
    clear m. intros _ m. unfold copy_exact, assert_. destruct (List.length m =? 32)%nat eqn:E.
    + apply Nat.eqb_eq in E. cbn [obind]. rewrite E2. cbn [unwrap obind].
      destruct (cp_step3 C st m) as [k|]; cbn [unwrap obind]; split; intro Q; try discriminate Q; auto.
      destruct Q as [Q|Q]; [contradiction|discriminate].
    + apply Nat.eqb_neq in E. cbn [obind]. tauto.
  - reflexivity.
Qed.

(* ------------------------------------------------------------------ *)
(** ** KC-SPAKE2 *)
Lemma kc_derive_panic : forall P pw mi mr k, kc_derive P pw mi mr k = Panic <-> (List.length k < 32)%nat.
Proof.
  intros P pw mi mr k. destruct (le_lt_dec 32 (List.length k)) as [L|L].
  - rewrite (kc_derive_ok P pw mi mr k L). split; [discriminate|lia].
  - split; [auto|]. intros _. unfold kc_derive, from_prk. apply Nat.leb_gt in L. rewrite L. reflexivity.
Qed.
Lemma kc_finish_panic : forall P S st pw mi mr msg A (f : bytes * bytes * bytes -> outcome A),
  (forall x, f x <> Panic) ->
  ((let! k := unwrap (sp_finish S st msg) in let! x := kc_derive P pw mi mr k in f x) = Panic <-> kc_refuses S st msg).
Proof.
  intros P S st pw mi mr msg A f F. unfold kc_refuses. destruct (sp_finish S st msg) as [k|]; cbn [unwrap obind]; [|tauto].
  rewrite <- (kc_derive_panic P pw mi mr k). destruct (kc_derive P pw mi mr k) as [x|]; cbn [obind]; split; intro Q; auto.
  - destruct (F _ Q).
  - discriminate Q.
Qed.
Theorem kc_spake2_run_panics_iff : forall P S r ssid pw rl s0 r' st0 own r1 l s os m,
  sp_start S pw ssid r = (st0, own, r1) ->
  pk_new (KcSpakePake P S) r ssid pw rl = Ret (s0, r') ->
  hist (pake_machine (KcSpakePake P S)) s0 l s ->
  (pk_run (KcSpakePake P S) s os m = Panic <-> kc_bad S st0 l (next_step rl l) m).
Proof.
  intros P S r ssid pw rl s0 r' st0 own r1 l s os m ST0 N H.
  assert (ST : kc_step s = next_step rl l).
  { apply (step_of_log (pake_machine (KcSpakePake P S)) kc_step rl s0 (kc_spake2_steps P S r ssid pw rl s0 r' N)); [|exact H].
    cbn [KcSpakePake pk_new] in N. unfold kc_new in N. rewrite ST0 in N. injection N as <- _. reflexivity. }
  assert (IV : (kc_step s = 0 \/ kc_step s = 1 -> kc_state s = Some st0)%nat /\
    (kc_step s = 0 -> ~ failed_once l)%nat /\
    (kc_step s = 2 -> (~ failed_once l /\ kc_state s = Some st0) \/ (failed_once l /\ kc_state s = None))%nat /\
    (kc_step s = 3 -> exists x, kc_macs s = Some x)%nat).
  { clear ST m. induction H as [|l s rr m s' o H IH E].
    - cbn [KcSpakePake pk_new] in N. unfold kc_new in N. rewrite ST0 in N. injection N as <- _. cbn.
      split; [auto|]. split; [intros _ [m [e []]]|]. destruct rl; cbn; split; discriminate.
    - destruct IH as [I1 [I0 [I2 I3]]]. cbn [pake_machine KcSpakePake m_run pk_run m_st PST] in *. unfold kc_run in E.
      assert (NF : forall o', ~ failed_once l -> ~ @failed_once (pake_machine (KcSpakePake P S)) (l ++ [(m, Ok o')])).
      { intros o' NF [m' [e IN]]. apply in_app_or in IN. destruct IN as [IN|[IN|[]]]; [|discriminate]. apply NF. exists m', e. exact IN. }
      assert (YF : forall e, @failed_once (pake_machine (KcSpakePake P S)) (l ++ [(m, Err e)])).
      { intro e. exists m, e. apply in_or_app. right. left. reflexivity. }
      destruct (kc_step s) as [|[|[|[|n]]]] eqn:ES; obi E.
      + injection E as <- <-. cbn [kc_step kc_state kc_macs]. split; [lia|]. split; [lia|]. split; [|lia].
        intros _. left. split; [apply NF, I0; reflexivity|apply I1; auto].
      + injection E as <- <-. cbn [kc_step kc_state kc_macs]. split; [lia|]. split; [lia|]. split; [lia|]. eauto.
      + match type of E with (if ?b then _ else _) = _ => destruct b end; injection E as <- <-; cbn [kc_step kc_state kc_macs];
        (split; [lia|]); (split; [lia|]); (split; [|lia]); try lia. intros _. right. split; [apply YF|reflexivity].
      + match type of E with (if ?b then _ else _) = _ => destruct b end; injection E as <- <-; cbn [kc_step kc_state kc_macs].
        * split; [lia|]. split; [lia|]. split; lia.
        * rewrite ES. split; [lia|]. split; [lia|]. split; [lia|]. intros _. apply I3. reflexivity. }
  destruct IV as [I1 [_ [I2 I3]]].
  cbn [KcSpakePake pk_run]. unfold kc_run. rewrite <- ST. destruct (kc_step s) as [|[|[|[|n]]]]; cbn [kc_bad].
  - apply nil_assert. discriminate.
  - rewrite I1 by auto. cbn [unwrap obind]. apply kc_finish_panic. intros [[a b] c]. discriminate.
  - unfold split_last. destruct (32 <=? List.length m)%nat eqn:E.
    + apply Nat.leb_le in E. cbn [obind]. destruct (I2 eq_refl) as [[NF ->]|[YF ->]]; cbn [unwrap obind].
      * fold (but_last 32 m). rewrite kc_finish_panic; [split; [tauto|]|].
        -- intros [Q|[Q|Q]]; [lia|contradiction|exact Q].
        -- intros [[a b] c]. destruct (beq b _); discriminate.
      * tauto.
    + apply Nat.leb_gt in E. cbn [obind]. tauto.
  - destruct (I3 eq_refl) as [[a b] ->]. cbn [unwrap obind]. destruct (beq a m); split; intro Q; try discriminate Q; contradiction.
  - tauto.
Qed.

(* ------------------------------------------------------------------ *)
(** ** ID-SIG-DH *)
Lemma slice_mid : forall off n (a b c : bytes), List.length a = off -> List.length b = n -> slice off n (a ++ b ++ c) = b.
Proof.
  intros off n a b c LA LB. unfold slice. rewrite skipn_app, LA, Nat.sub_diag, skipn_all2 by lia. cbn [skipn app].
  rewrite firstn_app, LB, Nat.sub_diag, firstn_all2 by lia. cbn [firstn]. apply app_nil_r.
Qed.
Lemma skipn_add : forall (m : bytes) a b, skipn b (skipn a m) = skipn (a + b) m.
Proof. induction m as [|x m IH]; intros [|a] b; cbn [skipn Nat.add]; try reflexivity; [destruct b; reflexivity|apply IH]. Qed.
Lemma sd_parse_panic : forall P m,
  sd_parse P m = Panic <-> List.length m <> 256%nat \/ p_pk_valid P Ed25519 (slice 128 32 m) = false.
Proof.
  intros P m. split.
  - intro H. destruct (Nat.eq_dec (List.length m) 256) as [L|L]; [|auto]. right.
    destruct (p_pk_valid P Ed25519 (slice 128 32 m)) eqn:V; [|reflexivity]. exfalso.
    assert (SP : m = firstn 32 m ++ firstn 64 (skipn 32 m) ++
      sd_cert_to_bytes (SdCert (slice 96 32 m) (slice 128 32 m, slice 160 32 m) (skipn 192 m))).
    { unfold sd_cert_to_bytes, slice. cbn [sdc_id sdc_upk sdc_sig fst snd].
      rewrite <- (firstn_skipn 32 m) at 1. f_equal.
      rewrite <- (firstn_skipn 64 (skipn 32 m)) at 1. f_equal. rewrite skipn_add.
      rewrite <- (firstn_skipn 32 (skipn (32 + 64) m)) at 1. f_equal. rewrite skipn_add.
      rewrite <- (firstn_skipn 32 (skipn (32 + 64 + 32) m)) at 1. f_equal. rewrite skipn_add.
      rewrite <- (firstn_skipn 32 (skipn (32 + 64 + 32 + 32) m)) at 1. f_equal. rewrite skipn_add. reflexivity. }
    rewrite SP in H. rewrite sd_parse_ok in H; [discriminate|..].
    + rewrite firstn_length. lia.
    + rewrite firstn_length, skipn_length. lia.
    + unfold sd_cert_wf, slice in *. cbn [sdc_id sdc_upk sdc_sig fst snd].
      repeat split; rewrite ?firstn_length, ?skipn_length; try lia. exact V.
  - intro Q. destruct (sd_parse P m) as [[[eph sg] c]|] eqn:E; [|reflexivity]. exfalso.
    apply sd_parse_inv in E. destruct c as [id [pk dh] cs]. destruct E as [-> [L1 [L2 [L3 [L4 [L5 [L6 V]]]]]]].
    unfold sd_cert_to_bytes in Q. cbn [sdc_id sdc_upk sdc_sig fst snd] in *. destruct Q as [Q|Q].
    + rewrite !app_length in Q. lia.
    + assert (SL : slice 128 32 (eph ++ sg ++ id ++ pk ++ dh ++ cs) = pk).
      { rewrite <- (slice_mid 128 32 (eph ++ sg ++ id) pk (dh ++ cs)) at 2 by (rewrite ?app_length; lia).
        rewrite <- !app_assoc. reflexivity. }
      rewrite SL, V in Q. discriminate Q.
Qed.
Theorem sig_dh_run_panics_iff : forall P r ssid mpk cert usk rl l s r' os m,
  hist (ibke_machine (IdSigDh P)) (fst (ik_new (IdSigDh P) r ssid mpk cert usk rl)) l s ->
  (ik_run (IdSigDh P) s r' os m = Panic <-> sig_dh_bad P (next_step rl l) m).
Proof.
  intros P r ssid mpk cert usk rl l s r' os m H.
  assert (ST : sd_step s = next_step rl l).
  { apply (step_of_log (ibke_machine (IdSigDh P)) sd_step rl _ (sig_dh_steps P r ssid mpk cert usk rl)); [reflexivity|exact H]. }
  assert (IV : sd_step s = 2%nat -> exists a b, sd_eph_sk s = Some a /\ sd_eph_pk s = Some b).
  { clear ST m. induction H as [|l s rr m s' o H IH E].
    - cbn. destruct rl; discriminate.
    - cbn [m_run ibke_machine IdSigDh ik_run m_st IST] in *. obi E. injection E as <- <-.
      unfold sd_run in E0. destruct (sd_step s) as [|[|[|n]]] eqn:ES; obi E0;
      repeat match type of E0 with (if ?b then _ else _) = _ => destruct b end; obi E0;
      injection E0 as <- <- <-; cbn [sd_step sd_eph_sk sd_eph_pk]; try (rewrite ES); try lia; eauto. }
  cbn [IdSigDh ik_run]. unfold sd_run. rewrite <- ST. destruct (sd_step s) as [|[|[|n]]]; cbn [sig_dh_bad].
  - apply nil_assert. destruct (draw 32 os). discriminate.
  - rewrite <- sd_parse_panic. destruct (sd_parse P m) as [[[eph sg] c]|]; cbn [obind]; [|tauto].
    split; [|discriminate]. destruct (draw 32 os). repeat match goal with |- context [if ?b then _ else _] => destruct b end; discriminate.
  - rewrite <- sd_parse_panic. destruct (sd_parse P m) as [[[eph sg] c]|]; cbn [obind]; [|tauto].
    destruct (IV eq_refl) as [a [b [-> ->]]]. cbn [unwrap obind].
    split; [|discriminate]. repeat match goal with |- context [if ?b then _ else _] => destruct b end; discriminate.
  - tauto.
Qed.

(* ------------------------------------------------------------------ *)
(** ** ID-HMQV-C *)
Lemma decompress_panic : forall G b, List.length b = 32%nat -> (decompress G b = Panic <-> not_a_point G b).
Proof.
  intros G b L. unfold decompress, not_a_point. rewrite L. cbn [Nat.eqb assert_].
  destruct (g_decompress G b); cbn [unwrap]; split; intro H; try discriminate H; reflexivity.
Qed.
Lemma hm_cert_panic : forall G b, hm_cert_from_bytes G b = Panic <->
  List.length b <> 128%nat \/ not_a_point G (slice 32 32 b).
Proof.
  intros G b. unfold hm_cert_from_bytes, split_at, ID_LEN, slice.
  destruct (32 <=? List.length b)%nat eqn:E1; [apply Nat.leb_le in E1|apply Nat.leb_gt in E1; cbn [obind]; split; [intros _; left; lia|reflexivity]].
  cbn [obind]. rewrite skipn_length.
  destruct (32 <=? List.length b - 32)%nat eqn:E2; [apply Nat.leb_le in E2|apply Nat.leb_gt in E2; cbn [obind]; split; [intros _; left; lia|reflexivity]].
  cbn [obind]. pose proof (decompress_panic G (firstn 32 (skipn 32 b))) as DP.
  rewrite firstn_length, skipn_length in DP. specialize (DP ltac:(lia)).
  destruct (decompress G (firstn 32 (skipn 32 b))) as [p|]; cbn [obind]; [|tauto].
  unfold ed_sig_from_bytes, copy_exact, assert_. rewrite !skipn_length.
  destruct (List.length b - 32 - 32 =? 64)%nat eqn:E3; cbn [obind].
  - apply Nat.eqb_eq in E3. split; [discriminate|]. intros [Q|Q]; [lia|]. apply DP in Q. discriminate Q.
  - apply Nat.eqb_neq in E3. split; [|reflexivity]. intros _. left. lia.
Qed.
Theorem hmqv_run_panics_iff : forall P G, group_laws G -> forall r ssid mpk cert usk rl l s r' os m,
  hist (ibke_machine (IdHmqvC P G)) (fst (ik_new (IdHmqvC P G) r ssid mpk cert usk rl)) l s ->
  (ik_run (IdHmqvC P G) s r' os m = Panic <-> hmqv_bad G (next_step rl l) m).
Proof.
  intros P G GL r ssid mpk cert usk rl l s r' os m H.
  assert (ST : hm_step s = next_step rl l).
  { apply (step_of_log (ibke_machine (IdHmqvC P G)) hm_step rl _ (hmqv_steps P G GL r ssid mpk cert usk rl)); [reflexivity|exact H]. }
  apply (hm_inv_hist P G GL) in H. destruct H as [_ IV].
  assert (I2 : hm_step s = 2%nat -> exists a b, hm_eph_sk s = Some a /\ hm_eph_pk s = Some b).
  { intro Q. destruct rl.
    - destruct IV as [[Q' _]|[x [m0 [_ [[_ [_ [A B]]]|[Q' _]]]]]]; try congruence. eauto.
    - destruct IV as [[Q' _]|[y [m1 [mac1 [id [k [m' [_ [_ [_ [_ [[Q' _]|[Q' _]]]]]]]]]]]]]; congruence. }
  assert (I3 : hm_step s = 3%nat -> exists a, hm_macs s = Some a).
  { intro Q. destruct rl.
    - destruct IV as [[Q' _]|[x [m0 [_ [[Q' _]|[Q' _]]]]]]; congruence.
    - destruct IV as [[Q' _]|[y [m1 [mac1 [id [k [m' [_ [_ [_ [_ [[_ [_ A]]|[Q' _]]]]]]]]]]]]]; try congruence. eauto. }
  cbn [IdHmqvC ik_run]. unfold hm_run. rewrite <- ST. clear ST IV. destruct (hm_step s) as [|[|[|[|n]]]]; cbn [hmqv_bad].
  - apply nil_assert. unfold hm_gen_user. destruct (s_random G r') as [x rx]. discriminate.
  - unfold split_at. destruct (32 <=? List.length m)%nat eqn:E1; [apply Nat.leb_le in E1|apply Nat.leb_gt in E1; cbn [obind]; split; [intros _; left; lia|reflexivity]].
    cbn [obind]. change (firstn 32 m) with (slice 0 32 m).
    pose proof (decompress_panic G (slice 0 32 m)) as DP. unfold slice in DP at 1. rewrite firstn_length in DP. cbn [skipn] in DP. specialize (DP ltac:(lia)).
    destruct (decompress G (slice 0 32 m)) as [p|]; cbn [obind]; [|tauto].
    pose proof (hm_cert_panic G (skipn 32 m)) as CP. unfold slice in CP. rewrite skipn_length, skipn_add in CP. fold (slice (32 + 32) 32 m) in CP. cbn [Nat.add] in CP.
    destruct (hm_cert_from_bytes G (skipn 32 m)) as [c|]; cbn [obind].
    + split; [|intros [Q|[Q|Q]]].
      * unfold hm_gen_user. destruct (s_random G r') as [x rx].
        destruct (hm_cert_valid P G (hm_mpk s) c); cbn [negb]; [|discriminate]. rewrite hm_derive_ok. discriminate.
      * exfalso. destruct CP as [_ CP]. discriminate CP. left. lia.
      * exfalso. apply DP in Q. discriminate Q.
      * exfalso. destruct CP as [_ CP]. discriminate CP. right. exact Q.
    + split; [|reflexivity]. intros _. destruct CP as [CP _]. destruct (CP eq_refl) as [Q|Q]; [left; lia|right; right; exact Q].
  - unfold split_at. destruct (32 <=? List.length m)%nat eqn:E1; [apply Nat.leb_le in E1|apply Nat.leb_gt in E1; cbn [obind]; split; [intros _; left; lia|reflexivity]].
    cbn [obind]. rewrite skipn_length.
    destruct (32 <=? List.length m - 32)%nat eqn:E2; [apply Nat.leb_le in E2|apply Nat.leb_gt in E2; cbn [obind]; split; [intros _; left; lia|reflexivity]].
    cbn [obind]. change (firstn 32 m) with (slice 0 32 m).
    pose proof (decompress_panic G (slice 0 32 m)) as DP. unfold slice in DP at 1. rewrite firstn_length in DP. cbn [skipn] in DP. specialize (DP ltac:(lia)).
    destruct (decompress G (slice 0 32 m)) as [p|]; cbn [obind]; [|tauto].
    rewrite skipn_add. pose proof (hm_cert_panic G (skipn (32 + 32) m)) as CP. unfold slice in CP. rewrite skipn_length, skipn_add in CP. fold (slice (32 + 32 + 32) 32 m) in CP. cbn [Nat.add] in CP |- *.
    destruct (I2 eq_refl) as [a [b [-> ->]]]. cbn [unwrap obind].
    destruct (hm_cert_from_bytes G (skipn 64 m)) as [c|]; cbn [obind].
    + split; [|intros [Q|[Q|Q]]].
      * destruct (hm_cert_valid P G (hm_mpk s) c); cbn [negb]; [|discriminate]. rewrite hm_derive_ok. cbn [obind].
        match goal with |- context [if ?b then _ else _] => destruct b end; discriminate.
      * exfalso. destruct CP as [_ CP]. discriminate CP. left. lia.
      * exfalso. apply DP in Q. discriminate Q.
      * exfalso. destruct CP as [_ CP]. discriminate CP. right. exact Q.
    + split; [|reflexivity]. intros _. destruct CP as [CP _]. destruct (CP eq_refl) as [Q|Q]; [left; lia|right; right; exact Q].
  - destruct (I3 eq_refl) as [[a b] ->]. cbn [unwrap obind]. destruct (beq m a); split; intro Q; try discriminate Q; contradiction.
  - tauto.
Qed.

(* ------------------------------------------------------------------ *)
(** ** FG-IBKE-C *)
Lemma decompress_panic_any : forall G b, decompress G b = Panic <-> List.length b <> 32%nat \/ not_a_point G b.
Proof.
  intros G b. destruct (Nat.eq_dec (List.length b) 32) as [L|L].
  - rewrite (decompress_panic G b L). tauto.
  - split; [auto|]. intros _. unfold decompress. apply Nat.eqb_neq in L. rewrite L. reflexivity.
Qed.
Lemma fg_derive_total : forall P G a b, exists x, fg_derive P G a b = Ret x.
Proof. intros P G a b. rewrite fg_derive_ok. eauto. Qed.
Theorem fg_run_panics_iff : forall P G, group_laws G -> forall rm mpk msk rm' r ssid cert usk rl l s r' os m,
  gen_main (FgIbkeC P G) rm = (mpk, msk, rm') ->
  hist (ibke_machine (FgIbkeC P G)) (fst (ik_new (FgIbkeC P G) r ssid mpk cert usk rl)) l s ->
  (ik_run (FgIbkeC P G) s r' os m = Panic <-> fg_bad G (next_step rl l) m).
Proof.
  intros P G GL rm mpk msk rm' r ssid cert usk rl l s r' os m GM H.
  assert (MP : exists p, decompress G mpk = Ret p).
  { cbn [FgIbkeC gen_main] in GM. unfold fg_gen_main in GM. destruct (s_random G rm) as [x rx]. injection GM as <- _ _.
    rewrite decompress_compress by exact GL. eauto. }
  assert (ST : fg_step s = next_step rl l).
  { apply (step_of_log (ibke_machine (FgIbkeC P G)) fg_step rl _ (fg_steps P G GL r ssid mpk cert usk rl)); [reflexivity|exact H]. }
  apply (fg_inv_hist P G GL) in H. destruct H as [[_ [FM _]] [_ IV]].
  assert (I2 : fg_step s = 2%nat -> exists a, fg_eph_sk s = Some a).
  { intro Q. destruct rl.
    - destruct IV as [[Q' _]|[x [m0 [_ [[_ [_ A]]|[Q' _]]]]]]; try congruence. eauto.
    - destruct IV as [[Q' _]|[y [m1 [mac1 [id [k [m' [_ [_ [_ [_ [[Q' _]|[Q' _]]]]]]]]]]]]]; congruence. }
  assert (I3 : fg_step s = 3%nat -> exists a, fg_macs s = Some a).
  { intro Q. destruct rl.
    - destruct IV as [[Q' _]|[x [m0 [_ [[Q' _]|[Q' _]]]]]]; congruence.
    - destruct IV as [[Q' _]|[y [m1 [mac1 [id [k [m' [_ [_ [_ [_ [[_ [_ A]]|[Q' _]]]]]]]]]]]]]; try congruence. eauto. }
  cbn [FgIbkeC ik_run]. unfold fg_run. rewrite <- ST. clear ST IV. rewrite FM. destruct MP as [mp MP]. rewrite MP.
  destruct (fg_step s) as [|[|[|[|n]]]]; cbn [fg_bad].
  - apply nil_assert. destruct (s_random G r') as [x rx]. discriminate.
  - unfold split_at, ID_LEN. destruct (32 <=? List.length m)%nat eqn:E1; [apply Nat.leb_le in E1|apply Nat.leb_gt in E1; cbn [obind]; split; [intros _; left; lia|reflexivity]].
    cbn [obind]. rewrite skipn_length.
    destruct (32 <=? List.length m - 32)%nat eqn:E2; [apply Nat.leb_le in E2|apply Nat.leb_gt in E2; cbn [obind]; split; [intros _; left; lia|reflexivity]].
    cbn [obind]. fold (slice 32 32 m).
    pose proof (decompress_panic G (slice 32 32 m)) as DP. unfold slice in DP at 1. rewrite firstn_length, skipn_length in DP. specialize (DP ltac:(lia)).
    destruct (decompress G (slice 32 32 m)) as [p|]; cbn [obind]; [|tauto].
    rewrite skipn_add. cbn [Nat.add].
    pose proof (decompress_panic_any G (skipn 64 m)) as EP. rewrite skipn_length in EP.
    assert (SL : List.length m = 96%nat -> slice 64 32 m = skipn 64 m).
    { intro Q. unfold slice. apply firstn_all2. rewrite skipn_length. lia. }
    destruct (decompress G (skipn 64 m)) as [q|]; cbn [obind].
    + destruct (s_random G r') as [x rx].
      match goal with |- context [fg_derive P G ?u ?v] => destruct (fg_derive_total P G u v) as [[[u1 u2] u3] ->] end. cbn [obind].
      split; [discriminate|]. intro Q. exfalso. destruct EP as [_ EP].
      destruct (Nat.eq_dec (List.length m) 96) as [L|L]; [|discriminate EP; left; lia].
      rewrite (SL L) in Q. destruct Q as [Q|[Q|Q]]; [contradiction|apply DP in Q; discriminate Q|]. discriminate EP. right. exact Q.
    + split; [|reflexivity]. intros _. destruct (Nat.eq_dec (List.length m) 96) as [L|L]; [|auto]. rewrite (SL L).
      destruct EP as [EP _]. destruct (EP eq_refl) as [Q|Q]; [lia|auto].
  - unfold split_at, ID_LEN. destruct (32 <=? List.length m)%nat eqn:E1; [apply Nat.leb_le in E1|apply Nat.leb_gt in E1; cbn [obind]; split; [intros _; left; lia|reflexivity]].
    cbn [obind]. rewrite skipn_length.
    destruct (32 <=? List.length m - 32)%nat eqn:E2; [apply Nat.leb_le in E2|apply Nat.leb_gt in E2; cbn [obind]; split; [intros _; left; lia|reflexivity]].
    cbn [obind]. rewrite !skipn_length.
    destruct (32 <=? List.length m - 32 - 32)%nat eqn:E3; [apply Nat.leb_le in E3|apply Nat.leb_gt in E3; cbn [obind]; split; [intros _; left; lia|reflexivity]].
    cbn [obind]. rewrite skipn_add. cbn [Nat.add]. fold (slice 32 32 m) (slice 64 32 m).
    pose proof (decompress_panic G (slice 32 32 m)) as DP. unfold slice in DP at 1. rewrite firstn_length, skipn_length in DP. specialize (DP ltac:(lia)).
    destruct (decompress G (slice 32 32 m)) as [p|]; cbn [obind]; [|tauto].
    pose proof (decompress_panic G (slice 64 32 m)) as EP. unfold slice in EP at 1. rewrite firstn_length, skipn_length in EP. specialize (EP ltac:(lia)).
    destruct (decompress G (slice 64 32 m)) as [q|]; cbn [obind]; [|tauto].
    destruct (I2 eq_refl) as [a ->]. cbn [unwrap obind].
    match goal with |- context [fg_derive P G ?u ?v] => destruct (fg_derive_total P G u v) as [[[u1 u2] u3] ->] end. cbn [obind].
    split.
    + match goal with |- context [if ?b then _ else _] => destruct b end; discriminate.
    + intros [Q|[Q|Q]]; [lia|apply DP in Q; discriminate Q|apply EP in Q; discriminate Q].
  - destruct (I3 eq_refl) as [[a b] ->]. cbn [unwrap obind]. destruct (beq a m); split; intro Q; try discriminate Q; contradiction.
  - tauto.
Qed.

(* ------------------------------------------------------------------ *)
(** ** ID-SIGMA-R *)
Lemma sm_sig_total : forall ty b, List.length b = sm_sig_size ty -> sm_sig_from_bytes ty b = Ret (ty, b).
Proof.
  intros [|] b L; unfold sm_sig_from_bytes, sm_sig_size in *.
  - rewrite L, Nat.leb_refl. reflexivity.
  - change (sig_len Ed25519) with 64%nat in L. rewrite copy_exact_ok by exact L. reflexivity.
Qed.
Lemma sm_cert_total : forall P b, List.length b = sm_cert_size Dilithium2 ->
  exists id upk sg, sm_cert_from_bytes P Dilithium2 b = Ret (Ok (SmCert id (Dilithium2, upk) (Dilithium2, sg))).
Proof.
  intros P b L. unfold sm_cert_from_bytes. rewrite L, Nat.eqb_refl. cbn [negb].
  unfold sm_cert_size, ID_LEN in L. remember (pk_len Dilithium2) as p. remember (sig_len Dilithium2) as q.
  unfold split_at, ID_LEN. replace (32 <=? List.length b)%nat with true by (symmetry; apply Nat.leb_le; lia). cbn [obind].
  rewrite skipn_length. replace (p <=? List.length b - 32)%nat with true by (symmetry; apply Nat.leb_le; lia). cbn [obind].
  rewrite firstn_length, !skipn_length.
  replace (Nat.min p (List.length b - 32) =? p)%nat with true by (symmetry; apply Nat.eqb_eq; lia). cbn [negb].
  replace (List.length b - 32 - p <=? q)%nat with true by (symmetry; apply Nat.leb_le; lia). cbn [negb]. eauto.
Qed.
Lemma sm_cert_ed : forall P b, List.length b = 128%nat ->
  if p_pk_valid P Ed25519 (slice 32 32 b)
  then exists id upk sg, sm_cert_from_bytes P Ed25519 b = Ret (Ok (SmCert id (Ed25519, upk) (Ed25519, sg)))
  else sm_cert_from_bytes P Ed25519 b = Panic.
Proof.
  intros P b L. unfold sm_cert_from_bytes. change (sm_cert_size Ed25519) with 128%nat. rewrite L. cbn [Nat.eqb negb].
  unfold split_at, ID_LEN. rewrite L. cbn [Nat.leb obind]. rewrite skipn_length, L. change (pk_len Ed25519) with 32%nat. cbn [Nat.sub Nat.leb obind].
  fold (slice 32 32 b). unfold ed_pk_from_bytes. rewrite copy_exact_ok by (unfold slice; rewrite firstn_length, skipn_length; lia). cbn [obind].
  destruct (p_pk_valid P Ed25519 (slice 32 32 b)); cbn [assert_ obind]; [|reflexivity].
  unfold ed_sig_from_bytes. rewrite copy_exact_ok by (rewrite !skipn_length; lia). cbn [obind]. eauto.
Qed.
(** Parsing a plaintext panics exactly on the plaintexts of the specification, and otherwise
    yields a certificate and a signature of the session's scheme. *)
Lemma sm_parse_panic : forall P ty pt,
  (sm_parse P ty pt = Panic /\ sigma_bad_plain P ty pt) \/
  (~ sigma_bad_plain P ty pt /\ exists sg mac certb id upk csig,
     sm_parse P ty pt = Ret ((ty, sg), mac, certb, Ok (SmCert id (ty, upk) (ty, csig)))).
Proof.
  intros P ty pt.
  assert (SZ : sigma_bad_plain P ty pt <-> ((List.length pt < sm_sig_size ty + sm_cert_size ty)%nat \/
            (ty = Ed25519 /\ p_pk_valid P Ed25519 (slice (List.length pt - 96) 32 pt) = false))).
  { destruct ty; unfold sigma_bad_plain.
    - change (sm_sig_size Dilithium2) with 2420%nat. change (sm_cert_size Dilithium2) with 3764%nat. split; [auto|]. intros [Q|[Q _]]; [exact Q|discriminate].
    - change (sm_sig_size Ed25519) with 64%nat. change (sm_cert_size Ed25519) with 128%nat. split; intros [Q|Q]; auto. right. apply Q. }
  rewrite SZ. clear SZ. unfold sm_parse, split_last.
  destruct (sm_cert_size ty <=? List.length pt)%nat eqn:E1; cbn [obind].
  2:{ apply Nat.leb_gt in E1. left. split; [reflexivity|]. left. lia. }
  apply Nat.leb_le in E1. unfold split_at. rewrite firstn_length.
  destruct (sm_sig_size ty <=? Nat.min (List.length pt - sm_cert_size ty) (List.length pt))%nat eqn:E2; cbn [obind].
  2:{ apply Nat.leb_gt in E2. left. split; [reflexivity|]. left. lia. }
  apply Nat.leb_le in E2. set (pre := firstn (List.length pt - sm_cert_size ty) pt).
  rewrite sm_sig_total by (unfold pre; rewrite !firstn_length; lia). cbn [obind].
  set (cb := skipn (List.length pt - sm_cert_size ty) pt).
  assert (LC : List.length cb = sm_cert_size ty) by (unfold cb; rewrite skipn_length; lia).
  destruct ty.
  - right. split; [intros [Q|[Q _]]; [lia|discriminate]|].
    destruct (sm_cert_total P cb LC) as [id [upk [csig ->]]]. cbn [obind]. eauto 10.
  - change (sm_cert_size Ed25519) with 128%nat in *. pose proof (sm_cert_ed P cb LC) as CE.
    assert (SL : slice 32 32 cb = slice (List.length pt - 96) 32 pt).
    { unfold slice, cb. rewrite skipn_add. f_equal. f_equal. lia. }
    rewrite SL in CE. destruct (p_pk_valid P Ed25519 (slice (List.length pt - 96) 32 pt)).
    + right. destruct CE as [id [upk [csig ->]]]. cbn [obind]. split; [intros [Q|[_ Q]]; [lia|discriminate]|]. eauto 10.
    + left. rewrite CE. cbn [obind]. split; [reflexivity|]. right. auto.
Qed.
(** The key under which the peer's confirmation must be sealed, from what the session sent and
    received: the responder's KEM key pair answer in the log encapsulates a secret, the
    initiator decapsulates the ciphertext of the log with the key it sent. *)
Definition sigma_peer_key (P : prims) (h : saber_prims) {M : machine} (nonce : bytes) (rl : role) (l : log M) (ek : bytes) : Prop :=
  match rl with
  | Initiator => exists os kpk ksk ro nB ct o, keygen_ind_cpa h LightSaber os = (kpk, ksk, ro) /\
      In ([], Ok (Some (nonce ++ pk_to_bytes kpk))) l /\ List.length nB = 32%nat /\ In (nB ++ ct, Ok o) l /\
      ek = expand P (decapsulate_ind_cpa LightSaber ct ksk) (str "enc_key_b") 64
  | Responder => exists os kpk nA pkb ss ct ro, List.length nA = 32%nat /\ indcpa_pk_from_bytes LightSaber pkb = Ret kpk /\
      encapsulate_ind_cpa h LightSaber os kpk = (ss, ct, ro) /\ In (nA ++ pkb, Ok (Some (nonce ++ ct))) l /\
      ek = expand P ss (str "enc_key_a") 64
  end.
Lemma encaps_ss_light : forall h os pk ss ct ro, encapsulate_ind_cpa h LightSaber os pk = (ss, ct, ro) -> List.length ss = 32%nat.
Proof.
  intros h os pk ss ct ro H. rewrite encaps_cpa_eq in H. apply (f_equal (fun x => fst (fst x))) in H. cbn [fst] in H.
  subst ss. apply bytes_at_ok.
Qed.
Lemma decaps_len_light : forall ct sk, List.length (decapsulate_ind_cpa LightSaber ct sk) = 32%nat.
Proof.
  intros ct sk. change (List.length (indcpa_dec LightSaber sk ct) = MESSAGEBYTES). unfold indcpa_dec.
  apply read_msg_length. unfold recon. rewrite map2_length.
  assert (L1 : forall b, List.length (recon_unpack LightSaber b) = DEG) by (intro b; apply fill_poly_length).
  rewrite L1. rewrite (proj1 (vmul_wf _ _)). apply Nat.min_id.
Qed.
Lemma t_verify_same : forall P ty pk m sg, t_verify P (ty, pk) m (ty, sg) = Ret (verify P ty pk m sg).
Proof. intros P [|] pk m sg; reflexivity. Qed.
(** A decrypted confirmation message: [k] is the rest of the step on a parsed certificate. *)
Lemma sm_open_panic : forall P ty ek m A (k : (tagged * bytes * bytes * res sm_cert sm_error) -> outcome A) (e : outcome A),
  e <> Panic -> (forall sg mac certb id upk csig, k ((ty, sg), mac, certb, Ok (SmCert id (ty, upk) (ty, csig))) <> Panic) ->
  ((let! d := auth_decrypt P ek m in
    match d with Err _ => e | Ok pt => let! x := sm_parse P ty pt in k x end) = Panic <->
   (List.length m < 44)%nat \/ exists pt, auth_decrypt P ek m = Ret (Ok pt) /\ sigma_bad_plain P ty pt).
Proof.
  intros P ty ek m A k e NE NK. rewrite <- (auth_decrypt_panic P ek m).
  destruct (auth_decrypt P ek m) as [[pt|u]|]; cbn [obind].
  - destruct (sm_parse_panic P ty pt) as [[-> B]|[NB [sg [mac [certb [id [upk [csig ->]]]]]]]]; cbn [obind].
    + split; [|reflexivity]. intros _. right. eauto.
    + split; [intro Q; destruct (NK _ _ _ _ _ _ Q)|]. intros [Q|[pt' [Q B]]]; [discriminate Q|]. injection Q as <-. contradiction.
  - split; [intro Q; destruct (NE Q)|]. intros [Q|[pt' [Q B]]]; discriminate Q.
  - tauto.
Qed.
Theorem sigma_run_panics_iff : forall P h r ssid mpk cert usk rl l s,
  let I := IdSigmaR (fst mpk) P h in
  hist (ibke_machine I) (fst (ik_new I r ssid mpk cert usk rl)) l s ->
  exists ek,
    (next_step rl l = 3 \/ next_step rl l = 4 -> sigma_peer_key P h (fst (draw 32 r)) rl l ek)%nat /\
    forall r' os m,
      (ik_run I s r' os m = Panic <-> sigma_bad P (fst mpk) ek (next_step rl l) m).
Proof.
  intros P h r ssid mpk cert usk rl l s I H. set (n := fst (draw 32 r)).
  assert (ST : sm_step s = next_step rl l).
  { apply (step_of_log (ibke_machine I) sm_step rl _ (sigma_steps P h r ssid mpk cert usk rl)); [|exact H].
    unfold I. cbn [IdSigmaR ik_new]. unfold sm_new. destruct (draw 32 r). reflexivity. }
  apply (sm_inv_hist P h ssid mpk cert usk n rl r l s eq_refl) in H.
  rewrite <- ST. unfold I. cbn [IdSigmaR ik_run]. unfold sm_run. clear ST.
  destruct rl; cbn [sm_inv] in H.
  - destruct H as [F H]. pose proof F as [F1 [F2 [F3 F4]]]. rewrite F2.
    destruct H as [[SE [D [NN KN]]]|[os0 [kpk [ksk [ro [KG [IN [SK [[SE [D [PK [NN KN]]]]|[nB [ct [o1 [LB [IN1 [KW [[SE D]|[SE [D _]]]]]]]]]]]]]]]]]]; rewrite SE.
    + exists []. split; [lia|]. intros r' os m. cbn [sigma_bad]. apply nil_assert. rewrite NN.
      destruct (keygen_ind_cpa h LightSaber os) as [[a b] c]. discriminate.
    + exists []. split; [lia|]. intros r' os m. cbn [sigma_bad]. unfold split_at.
      destruct (32 <=? List.length m)%nat eqn:E1; [apply Nat.leb_le in E1|apply Nat.leb_gt in E1; cbn [obind]; split; [intros _; lia|reflexivity]].
      cbn [obind]. rewrite skipn_length, light_ct_bytes.
      destruct (List.length m - 32 =? 736)%nat eqn:E2; cbn [assert_]; [|apply Nat.eqb_neq in E2; split; [intros _; lia|reflexivity]].
      apply Nat.eqb_eq in E2. unfold ciphertext_from_bytes, newtype_from_bytes. rewrite skipn_length, light_ct_bytes, E2. rewrite Nat.eqb_refl. cbn [negb assert_ obind].
      rewrite SK, PK. cbn [unwrap obind]. rewrite sm_keys_ok by (apply decaps_len_light). cbn [obind].
      match goal with |- context [auth_encrypt P ?a ?b ?c] => destruct (auth_encrypt P a b c) as [enc r1] end.
      split; [discriminate|lia].
    + cbn zeta in KW. pose proof KW as [K1 [K2 [K3 [K4 [K5 K6]]]]].
      exists (sm_eb P (decapsulate_ind_cpa LightSaber ct ksk)). split.
      { intros _. cbn [sigma_peer_key]. exists os0, kpk, ksk, ro, nB, ct, o1. repeat split; auto. }
      intros r' os m. cbn [sigma_bad]. rewrite K1, K2, K3, K4, K5. cbn [unwrap obind fst snd].
      apply sm_open_panic; [discriminate|]. intros sg mac certb id upk csig. cbn beta iota.
      unfold sm_cert_valid. cbn [smc_id smc_upk smc_sig snd]. destruct mpk as [ty pk]. cbn [fst]. rewrite !t_verify_same. cbn [obind].
      repeat match goal with |- context [if negb ?b then _ else _] => destruct b; cbn [negb] end; discriminate.
    + exists []. split; [lia|]. intros r' os m. cbn [sigma_bad]. tauto.
  - destruct H as [F H]. pose proof F as [F1 [F2 [F3 F4]]]. rewrite F2.
    destruct H as [[SE [D [NN KN]]]|[os0 [kpk [nA [pkb [ss [ct [ro [LA [PKB [EN [IN [KW [[SE D]|[SE [D _]]]]]]]]]]]]]]]]; rewrite SE.
    + exists []. split; [lia|]. intros r' os m. cbn [sigma_bad]. unfold split_at.
      destruct (32 <=? List.length m)%nat eqn:E1; [apply Nat.leb_le in E1|apply Nat.leb_gt in E1; cbn [obind]; split; [intros _; lia|reflexivity]].
      cbn [obind]. pose proof (light_pk_parse_panic (skipn 32 m)) as PP. rewrite skipn_length in PP.
      destruct (indcpa_pk_from_bytes LightSaber (skipn 32 m)) as [pk|]; cbn [obind].
      * destruct (encapsulate_ind_cpa h LightSaber os pk) as [[ss ct] ro] eqn:EN. rewrite sm_keys_ok by (eapply encaps_ss_light; exact EN).
        rewrite NN. cbn [unwrap obind]. split; [discriminate|]. intro Q. exfalso. destruct PP as [_ PP]. discriminate PP. lia.
      * split; [|reflexivity]. intros _. destruct PP as [PP _]. specialize (PP eq_refl). lia.
    + pose proof KW as [K1 [K2 [K3 [K4 [K5 K6]]]]]. exists (sm_ea P ss). split.
      { intros _. cbn [sigma_peer_key]. exists os0, kpk, nA, pkb, ss, ct, ro. repeat split; auto. }
      intros r' os m. cbn [sigma_bad]. rewrite K1, K2, K3, K4, K5. cbn [unwrap obind fst snd].
      apply sm_open_panic; [discriminate|]. intros sg mac certb id upk csig. cbn beta iota.
      unfold sm_cert_valid. cbn [smc_id smc_upk smc_sig snd]. destruct mpk as [ty pk]. cbn [fst]. rewrite !t_verify_same. cbn [obind].
      repeat match goal with |- context [if negb ?b then _ else _] => destruct b; cbn [negb] end; try discriminate.
    + exists []. split; [lia|]. intros r' os m. cbn [sigma_bad]. tauto.
Qed.

(* ------------------------------------------------------------------ *)
(** ** The hypotheses are met, and both sides of the equivalences occur *)
(** A CAKE initiator after its first call: 735 bytes panic, 736 do not. *)
Example cake_panics_meets : forall P h r ssid pw os, exists s0 r' l s,
  pk_new (CakePake P h) r ssid pw Initiator = Ret (s0, r') /\ hist (pake_machine (CakePake P h)) s0 l s /\ next_step Initiator l = 2%nat /\
  pk_run (CakePake P h) s os (repeat 0 735) = Panic /\ pk_run (CakePake P h) s os (repeat 0 736) <> Panic.
Proof.
  intros P h r ssid pw os. remember (CakePake P h) as K eqn:EK.
  assert (exists s0 r', pk_new K r ssid pw Initiator = Ret (s0, r')) as [s0 [r' N]] by (subst K; eexists _, _; reflexivity).
  assert (exists s1 o, pk_run K s0 os [] = Ret (s1, Ok o)) as [s1 [o R]].
  { subst K. destruct (pk_run (CakePake P h) s0 os []) as [[s1 [o|e]]|] eqn:R; [eauto| |].
    { cbn [CakePake pk_run] in R. unfold cake_run in R. destruct (ck_step s0) as [|[|[|n]]]; obi R; discriminate R. }
    apply (cake_run_panics_iff P h r ssid pw Initiator s0 r' [] s0 os [] N) in R; [|constructor]. destruct R. reflexivity. }
  subst K. assert (H : hist (pake_machine (CakePake P h)) s0 ([] ++ [([], Ok o)]) s1).
  { apply (hist_run (pake_machine (CakePake P h)) _ [] s0 (os, os)); [constructor|exact R]. }
  exists s0, r', ([] ++ [([], Ok o)]), s1. split; [exact N|]. split; [exact H|]. split; [reflexivity|].
  assert (Q := fun m => cake_run_panics_iff P h r ssid pw Initiator s0 r' _ s1 os m N H).
  cbn [next_step first_step app succeeded Nat.mul Nat.add cake_bad] in Q. split.
  - apply Q. rewrite repeat_length. discriminate.
  - rewrite Q, repeat_length. intro X. apply X. reflexivity.
Qed.
(** A KC-SPAKE2 initiator that has refused a MAC panics on the next message, however well formed. *)
Example kc_panics_meets : exists s0 r' l s,
  pk_new (KcSpakePake toy_prims toy_spake) (fun _ => 7) [1] [2] Initiator = Ret (s0, r') /\
  hist (pake_machine (KcSpakePake toy_prims toy_spake)) s0 l s /\ next_step Initiator l = 2%nat /\ failed_once l /\
  forall os m, pk_run (KcSpakePake toy_prims toy_spake) s os m = Panic.
Proof.
  remember (KcSpakePake toy_prims toy_spake) as K eqn:EK.
  assert (B : match pk_new K (fun _ => 7) [1] [2] Initiator with
     | Ret (s0, _) => match pk_run K s0 (fun _ => 0) [] with
       | Ret (s1, Ok _) => match pk_run K s1 (fun _ => 0) (repeat 9 64) with Ret (_, Err _) => true | _ => false end
       | _ => false end
     | _ => false end = true) by (subst K; vm_compute; reflexivity).
  destruct (pk_new K (fun _ => 7) [1] [2] Initiator) as [[s0 r']|] eqn:N; [|discriminate B].
  destruct (pk_run K s0 (fun _ => 0) []) as [[s1 [o1|e1]]|] eqn:R1; [|discriminate B|discriminate B].
  destruct (pk_run K s1 (fun _ => 0) (repeat 9 64)) as [[s2 [o2|e2]]|] eqn:R2; [discriminate B| |discriminate B]. clear B.
  assert (H : hist (pake_machine K) s0 (([] ++ [([], Ok o1)]) ++ [(repeat 9 64, Err e2)]) s2).
  { apply (hist_run (pake_machine K) _ _ s1 ((fun _ => 0), (fun _ => 0))); [|exact R2].
    apply (hist_run (pake_machine K) _ _ s0 ((fun _ => 0), (fun _ => 0))); [constructor|exact R1]. }
  exists s0, r', (([] ++ [([], Ok o1)]) ++ [(repeat 9 64, Err e2)]), s2. split; [reflexivity|]. split; [exact H|]. split; [reflexivity|].
  assert (F : failed_once (([] ++ [([], Ok o1)]) ++ [(repeat 9 64, Err e2)] : log (pake_machine K))).
  { exists (repeat 9 64), e2. right. left. reflexivity. }
  split; [exact F|]. intros os m. subst K.
  destruct (sp_start toy_spake [2] [1] (fun _ => 7)) as [[st own] r1] eqn:SP.
  apply (kc_spake2_run_panics_iff toy_prims toy_spake (fun _ => 7) [1] [2] Initiator s0 r' st own r1 _ s2 os m SP N H). right. left. exact F.
Qed.
(** Fresh responders: one byte too many panics. *)
Example ibke_panics_meet : forall r ssid cert usk cert2 usk2 r' os,
  (let I := IdSigDh toy_prims in forall mpk, let s := fst (ik_new I r ssid mpk cert usk Responder) in
     ik_run I s r' os (repeat 0 257) = Panic /\ ik_run I s r' os (repeat 0 256) <> Panic) /\
  (let I := IdHmqvC toy_prims toy_group in forall mpk, let s := fst (ik_new I r ssid mpk cert2 usk2 Responder) in
     ik_run I s r' os (repeat 0 161) = Panic /\ ik_run I s r' os (repeat 0 160) <> Panic /\ ik_run I s r' os (repeat 1 160) = Panic).
Proof.
  intros r ssid cert usk cert2 usk2 r' os. split; cbv zeta; intro mpk.
  - assert (Q := fun m => sig_dh_run_panics_iff toy_prims r ssid mpk cert usk Responder [] _ r' os m (hist_init _ _)).
    cbn [next_step first_step app succeeded Nat.mul Nat.add sig_dh_bad] in Q. rewrite !Q, !repeat_length. split; [left; discriminate|].
    intros [X|X]; [apply X; reflexivity|discriminate X].
  - assert (Q := fun m => hmqv_run_panics_iff toy_prims toy_group toy_group_laws r ssid mpk cert2 usk2 Responder [] _ r' os m (hist_init _ _)).
    cbn [next_step first_step app succeeded Nat.mul Nat.add hmqv_bad] in Q. rewrite !Q, !repeat_length. split; [left; discriminate|]. split.
    + intros [X|[X|X]]; [apply X; reflexivity| |]; vm_compute in X; discriminate X.
    + right. left. vm_compute. reflexivity.
Qed.
(** A fresh ID-SIGMA-R responder: 703 bytes panic, 704 do not. *)
Example sigma_panics_meets : forall P h r ssid mpk cert usk r' os,
  let I := IdSigmaR (fst mpk) P h in let s := fst (ik_new I r ssid mpk cert usk Responder) in
  ik_run I s r' os (repeat 0 703) = Panic /\ ik_run I s r' os (repeat 0 704) <> Panic.
Proof.
  intros P h r ssid mpk cert usk r' os I s.
  destruct (sigma_run_panics_iff P h r ssid mpk cert usk Responder [] s (hist_init _ _)) as [ek [_ Q]]. fold I in Q.
  rewrite !Q. cbn [next_step first_step app succeeded Nat.mul Nat.add sigma_bad]. rewrite !repeat_length. split; [discriminate|].
  intro X. apply X. reflexivity.
Qed.
