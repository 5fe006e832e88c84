(** * Symmetric: model of latke/src/auth_enc.rs and latke/src/ideal_cipher.rs. *)
From Coq Require Import ZArith List Lia Bool.
From Verif Require Import Base Crypto.
Import ListNotations.
Open Scope Z_scope.

(** auth_enc.rs 15: the HMAC tag length. *)
Definition TAGLEN : nat := 32.
(** auth_enc.rs 34 and 60: length of the appended nonce. *)
Definition NONCELEN : nat := 12.

(** auth_enc.rs 36-38 and 69-71: [apply_keystream], xor with the ChaCha20 keystream. (The
    2^32-block limit of ChaCha20, 256 GiB, is not modelled.) *)
Definition stream_xor (P : prims) (enc_key nonce m : bytes) : bytes :=
  xor_bytes m (bytes_of (length m) (p_chacha20 P enc_key nonce)).

(** auth_enc.rs 23-52: [auth_encrypt].  The key is a 64-byte array, so splitting it at 32
    cannot fail. *)
Definition auth_encrypt (P : prims) (r : rng) (key msg : bytes) : bytes * rng :=
  let enc_key := firstn 32 key in
  let mac_key := skipn 32 key in
  let (nonce, r1) := draw NONCELEN r in
  let body := stream_xor P enc_key nonce msg ++ nonce in
  (body ++ hmac P mac_key body, r1).

(** auth_enc.rs 54-75: [auth_decrypt]; the only error is a failed MAC check. *)
Definition auth_decrypt (P : prims) (key sealed : bytes) : outcome (res bytes unit) :=
  let enc_key := firstn 32 key in
  let mac_key := skipn 32 key in
  let! (body, mac) := split_last TAGLEN sealed in
  let! (ct, nonce) := split_last NONCELEN body in
  if beq (hmac P mac_key body) mac
  then Ret (Ok (stream_xor P enc_key nonce ct))
  else Ret (Err tt).

(** ideal_cipher.rs 6-12: [xor_in_place] on slices of equal length. *)
Definition xor_in_place (l r : bytes) : outcome bytes :=
  assert_ (length l =? length r)%nat (Ret (xor_bytes l r)).

(** ideal_cipher.rs 14-34: [eval_deck]: F_key(prefix || input || suffix). *)
Definition eval_deck (P : prims) (key : bytes) (prefix suffix : Z) (input : bytes) (outlen : nat) : bytes :=
  bytes_of outlen (p_deck P key ([prefix] ++ input ++ [suffix])).

(** b'h' and b'g'. *)
Definition ch_h : Z := 104.
Definition ch_g : Z := 103.

(** ideal_cipher.rs 38-42 and 80-84: R_0 ^= H_k(L || 0). *)
Definition round_r0 (P : prims) (key inout : bytes) : outcome bytes :=
  let! (lft, rgt) := split_at 16 inout in
  let! (r0, rest) := split_at 16 rgt in
  let hkl := eval_deck P key ch_h 0 lft (length r0) in
  let! r0' := xor_in_place r0 hkl in
  Ret (lft ++ r0' ++ rest).
(** ideal_cipher.rs 44-47 and 75-78: L ^= G_k(R || 1). *)
Definition round_l (P : prims) (key inout : bytes) : outcome bytes :=
  let! (lft, rgt) := split_at 16 inout in
  let gkr := eval_deck P key ch_g 1 rgt (length lft) in
  let! lft' := xor_in_place lft gkr in
  Ret (lft' ++ rgt).
(** ideal_cipher.rs 49-52 and 70-73: R ^= G_k(L || 0). *)
Definition round_r (P : prims) (key inout : bytes) : outcome bytes :=
  let! (lft, rgt) := split_at 16 inout in
  let gkl := eval_deck P key ch_g 0 lft (length rgt) in
  let! rgt' := xor_in_place rgt gkl in
  Ret (lft ++ rgt').
(** ideal_cipher.rs 54-58 and 64-68: L_0 ^= H_k(R || 1). *)
Definition round_l0 (P : prims) (key inout : bytes) : outcome bytes :=
  let! (lft, rgt) := split_at 16 inout in
  let! (l0, rest) := split_at 16 lft in
  let hkr := eval_deck P key ch_h 1 rgt (length l0) in
  let! l0' := xor_in_place l0 hkr in
  Ret (l0' ++ rest ++ rgt).

(** ideal_cipher.rs 36-59: [wide_block_encrypt]. *)
Definition wide_block_encrypt (P : prims) (key inout : bytes) : outcome bytes :=
  let! x := round_r0 P key inout in
  let! x := round_l P key x in
  let! x := round_r P key x in
  round_l0 P key x.
(** ideal_cipher.rs 61-85: [wide_block_decrypt]. *)
Definition wide_block_decrypt (P : prims) (key inout : bytes) : outcome bytes :=
  let! x := round_l0 P key inout in
  let! x := round_r P key x in
  let! x := round_l P key x in
  round_r0 P key x.

(* ------------------------------------------------------------------ *)
(** ** Facts about the authenticated encryption *)
Lemma stream_xor_length : forall P k n m, length (stream_xor P k n m) = length m.
Proof. intros. unfold stream_xor. rewrite xor_bytes_length, bytes_of_length. lia. Qed.
Lemma stream_xor_involutive : forall P k n m, stream_xor P k n (stream_xor P k n m) = m.
Proof.
  intros. unfold stream_xor at 1. rewrite stream_xor_length. unfold stream_xor.
  apply xor_bytes_involutive. rewrite bytes_of_length. lia.
Qed.
Lemma auth_encrypt_length : forall P r key m, length (fst (auth_encrypt P r key m)) = (length m + 44)%nat.
Proof.
  intros. unfold auth_encrypt. destruct (draw NONCELEN r) as [n r1] eqn:E. cbn [fst].
  assert (length n = 12%nat) by (replace n with (fst (draw NONCELEN r)) by (rewrite E; reflexivity); apply draw_length).
  rewrite !app_length, hmac_length, stream_xor_length. lia.
Qed.
Lemma auth_roundtrip : forall P r key m, auth_decrypt P key (fst (auth_encrypt P r key m)) = Ret (Ok m).
Proof.
  intros. unfold auth_encrypt. destruct (draw NONCELEN r) as [n r1] eqn:E. cbn [fst].
  assert (length n = 12%nat) by (replace n with (fst (draw NONCELEN r)) by (rewrite E; reflexivity); apply draw_length).
  unfold auth_decrypt. rewrite split_last_app by apply hmac_length. cbn [obind].
  rewrite split_last_app by assumption. cbn [obind].
  rewrite beq_refl, stream_xor_involutive. reflexivity.
Qed.
Lemma auth_encrypt_rest : forall P r key m, snd (auth_encrypt P r key m) = snd (draw NONCELEN r).
Proof. intros. unfold auth_encrypt. destruct (draw NONCELEN r). reflexivity. Qed.
Lemma auth_decrypt_ok_inv : forall P key c m,
  auth_decrypt P key c = Ret (Ok m) ->
  exists body nonce, c = body ++ nonce ++ hmac P (skipn 32 key) (body ++ nonce) /\
    length nonce = 12%nat /\ m = stream_xor P (firstn 32 key) nonce body.
Proof.
  intros P key c m H. unfold auth_decrypt in H.
  destruct (split_last TAGLEN c) as [[b t]|] eqn:E1; [|discriminate]. cbn [obind] in H.
  apply split_last_inv in E1. destruct E1 as [-> L1].
  destruct (split_last NONCELEN b) as [[ct n]|] eqn:E2; [|discriminate]. cbn [obind] in H.
  apply split_last_inv in E2. destruct E2 as [-> L2].
  destruct (beq (hmac P (skipn 32 key) (ct ++ n)) t) eqn:E3; [|discriminate].
  apply beq_spec in E3. subst t. inversion H. exists ct, n. rewrite app_assoc. auto.
Qed.
Lemma auth_decrypt_panic : forall P key c,
  auth_decrypt P key c = Panic <-> (length c < 44)%nat.
Proof.
  intros P key c. unfold auth_decrypt.
  destruct (split_last TAGLEN c) as [[b t]|] eqn:E1.
  - apply split_last_inv in E1. destruct E1 as [-> L1]. cbn [obind]. unfold TAGLEN in L1.
    destruct (split_last NONCELEN b) as [[ct n]|] eqn:E2.
    + apply split_last_inv in E2. destruct E2 as [-> L2]. cbn [obind]. unfold NONCELEN in L2.
      rewrite !app_length, L1, L2.
      destruct (beq _ t); split; try discriminate; lia.
    + apply split_last_panic in E2. unfold NONCELEN in E2. rewrite app_length, L1. split; [lia|reflexivity].
  - apply split_last_panic in E1. unfold TAGLEN in E1. split; [lia|reflexivity].
Qed.

(* ------------------------------------------------------------------ *)
(** ** Facts about the wide-block cipher *)
Lemma split_at_ret : forall {A} n (l : list A), (n <= length l)%nat ->
  split_at n l = Ret (firstn n l, skipn n l).
Proof. intros A n l H. unfold split_at. apply Nat.leb_le in H. rewrite H. reflexivity. Qed.
Lemma eval_deck_length : forall P k a b i n, length (eval_deck P k a b i n) = n.
Proof. intros. apply bytes_of_length. Qed.
Lemma xor_in_place_ok : forall l r, length l = length r -> xor_in_place l r = Ret (xor_bytes l r).
Proof. intros l r H. unfold xor_in_place. rewrite H, Nat.eqb_refl. reflexivity. Qed.

(** Each round is an involution on blocks of at least 32 bytes. *)
Definition block (x : bytes) : Prop := (32 <= length x)%nat.
Lemma block_split : forall x, block x -> exists l r0 rest,
  x = l ++ r0 ++ rest /\ length l = 16%nat /\ length r0 = 16%nat.
Proof.
  intros x H. unfold block in H. exists (firstn 16 x), (firstn 16 (skipn 16 x)), (skipn 16 (skipn 16 x)).
  rewrite firstn_skipn, firstn_skipn. repeat split; rewrite firstn_length; try rewrite skipn_length; lia.
Qed.
Lemma round_r0_eq : forall P k l r0 rest, length l = 16%nat -> length r0 = 16%nat ->
  round_r0 P k (l ++ r0 ++ rest) = Ret (l ++ xor_bytes r0 (eval_deck P k ch_h 0 l 16) ++ rest).
Proof.
  intros. unfold round_r0. rewrite split_at_app by assumption. cbn [obind].
  rewrite split_at_app by assumption. cbn [obind]. rewrite xor_in_place_ok.
  - cbn [obind]. rewrite H0. reflexivity.
  - rewrite eval_deck_length. reflexivity.
Qed.
Lemma round_l_eq : forall P k l r, length l = 16%nat ->
  round_l P k (l ++ r) = Ret (xor_bytes l (eval_deck P k ch_g 1 r 16) ++ r).
Proof.
  intros. unfold round_l. rewrite split_at_app by assumption. cbn [obind]. rewrite xor_in_place_ok.
  - cbn [obind]. rewrite H. reflexivity.
  - rewrite eval_deck_length. reflexivity.
Qed.
Lemma round_r_eq : forall P k l r, length l = 16%nat ->
  round_r P k (l ++ r) = Ret (l ++ xor_bytes r (eval_deck P k ch_g 0 l (length r))).
Proof.
  intros. unfold round_r. rewrite split_at_app by assumption. cbn [obind]. rewrite xor_in_place_ok.
  - reflexivity.
  - rewrite eval_deck_length. reflexivity.
Qed.
Lemma round_l0_eq : forall P k l r, length l = 16%nat ->
  round_l0 P k (l ++ r) = Ret (xor_bytes l (eval_deck P k ch_h 1 r 16) ++ r).
Proof.
  intros P k l r H. unfold round_l0. rewrite split_at_app by assumption. cbn [obind].
  replace (split_at 16 l) with (Ret (l, @nil Z)).
  2: { rewrite <- (app_nil_r l) at 2. symmetry. apply split_at_app. exact H. }
  cbn [obind]. rewrite xor_in_place_ok.
  - cbn [obind app]. rewrite H. reflexivity.
  - rewrite eval_deck_length. reflexivity.
Qed.
Definition involution (f : bytes -> outcome bytes) : Prop :=
  forall x, block x -> exists y, f x = Ret y /\ f y = Ret x /\ length y = length x.
Lemma xb16 : forall a P k c d i, length a = 16%nat -> length (xor_bytes a (eval_deck P k c d i 16)) = 16%nat.
Proof. intros. rewrite xor_bytes_length, eval_deck_length, H. reflexivity. Qed.
Lemma round_r0_inv : forall P k, involution (round_r0 P k).
Proof.
  intros P k x H. destruct (block_split x H) as [l [r0 [rest [-> [L R]]]]].
  rewrite round_r0_eq by assumption. eexists. split; [reflexivity|].
  rewrite round_r0_eq by (auto using xb16). rewrite xor_bytes_involutive by (rewrite eval_deck_length; lia).
  split; [reflexivity|]. rewrite !app_length, xb16 by assumption. lia.
Qed.
Lemma round_l_inv : forall P k, involution (round_l P k).
Proof.
  intros P k x H. destruct (block_split x H) as [l [r0 [rest [-> [L R]]]]].
  rewrite round_l_eq by assumption. eexists. split; [reflexivity|].
  rewrite round_l_eq by (auto using xb16). rewrite xor_bytes_involutive by (rewrite eval_deck_length; lia).
  split; [reflexivity|]. rewrite !app_length, xb16 by assumption. lia.
Qed.
Lemma round_r_inv : forall P k, involution (round_r P k).
Proof.
  intros P k x H. destruct (block_split x H) as [l [r0 [rest [-> [L R]]]]].
  rewrite round_r_eq by assumption. eexists. split; [reflexivity|].
  rewrite round_r_eq by assumption.
  assert (E : forall y, length (xor_bytes (r0 ++ rest) (eval_deck P k ch_g 0 y (length (r0 ++ rest)))) = length (r0 ++ rest)).
  { intro y. rewrite xor_bytes_length, eval_deck_length. lia. }
  rewrite E. rewrite xor_bytes_involutive by (rewrite eval_deck_length; lia).
  split; [reflexivity|]. rewrite app_length, E, <- app_length. reflexivity.
Qed.
Lemma round_l0_inv : forall P k, involution (round_l0 P k).
Proof.
  intros P k x H. destruct (block_split x H) as [l [r0 [rest [-> [L R]]]]].
  rewrite round_l0_eq by assumption. eexists. split; [reflexivity|].
  rewrite round_l0_eq by (auto using xb16). rewrite xor_bytes_involutive by (rewrite eval_deck_length; lia).
  split; [reflexivity|]. rewrite !app_length, xb16 by assumption. lia.
Qed.

Lemma wbc_roundtrip : forall P k x, block x ->
  exists y, wide_block_encrypt P k x = Ret y /\ wide_block_decrypt P k y = Ret x /\ length y = length x.
Proof.
  intros P k x H. unfold wide_block_encrypt, wide_block_decrypt.
  destruct (round_r0_inv P k x H) as [x1 [F1 [B1 L1]]].
  destruct (round_l_inv P k x1) as [x2 [F2 [B2 L2]]]; [unfold block in *; lia|].
  destruct (round_r_inv P k x2) as [x3 [F3 [B3 L3]]]; [unfold block in *; lia|].
  destruct (round_l0_inv P k x3) as [x4 [F4 [B4 L4]]]; [unfold block in *; lia|].
  exists x4. rewrite F1; cbn [obind]; rewrite F2; cbn [obind]; rewrite F3; cbn [obind]; rewrite F4.
  rewrite B4; cbn [obind]; rewrite B3; cbn [obind]; rewrite B2; cbn [obind]. repeat split; auto; lia.
Qed.
Lemma wbc_roundtrip_dec : forall P k x, block x ->
  exists y, wide_block_decrypt P k x = Ret y /\ wide_block_encrypt P k y = Ret x /\ length y = length x.
Proof.
  intros P k x H. unfold wide_block_encrypt, wide_block_decrypt.
  destruct (round_l0_inv P k x H) as [x1 [F1 [B1 L1]]].
  destruct (round_r_inv P k x1) as [x2 [F2 [B2 L2]]]; [unfold block in *; lia|].
  destruct (round_l_inv P k x2) as [x3 [F3 [B3 L3]]]; [unfold block in *; lia|].
  destruct (round_r0_inv P k x3) as [x4 [F4 [B4 L4]]]; [unfold block in *; lia|].
  exists x4. rewrite F1; cbn [obind]; rewrite F2; cbn [obind]; rewrite F3; cbn [obind]; rewrite F4.
  rewrite B4; cbn [obind]; rewrite B3; cbn [obind]; rewrite B2; cbn [obind]. repeat split; auto; lia.
Qed.
