(** * PropsSym: C12-C15, authenticated encryption and the wide-block cipher. *)
From Coq Require Import ZArith List Lia Bool.
From Verif Require Import Base Crypto Symmetric.
Import ListNotations.
Open Scope Z_scope.

(** A toy set of primitives on which everything computes: used to show that hypotheses are
    satisfiable and to exhibit counterexamples.  The "hash" family sums its input (so it is
    not constant); the "signature" repeats a checksum of key and message; "x25519" is
    addition of first bytes. *)
Definition toy_sum (m : bytes) : Z := fold_left (fun a b => 31 * a + b + 7) m 1 mod 65521.
Definition toy_stream (tag : Z) (m : bytes) : rng := fun i => toy_sum (tag :: m) + Z.of_nat i.
Definition toy_first (m : bytes) : Z := hd 0 m.
Definition toy_prims : prims := {|
  p_hash256 := toy_stream 1;
  p_hash512 := toy_stream 2;
  p_hmac := fun k m => toy_stream 3 (k ++ m);
  p_expand := fun k m => toy_stream 4 (k ++ m);
  p_extract := fun s m => toy_stream 5 (match s with Some x => x | None => [] end ++ m);
  p_chacha20 := fun k m => toy_stream 6 (k ++ m);
  p_chacha12 := toy_stream 7;
  p_deck := fun k m => toy_stream 8 (k ++ m);
  p_sig_pk := fun s c => fun i => nth i c 5;
  p_sig_sk := fun s c => fun i => nth i c 5;
  p_sign := fun s sk m => toy_stream 9 (firstn 32 sk ++ m);
  p_verify := fun s pk m sg => beq sg (bytes_of (sig_len s) (toy_stream 9 (firstn 32 pk ++ m)));
  p_pk_valid := fun s pk => true;
  p_x_pub := fun sk => fun i => match i with O => toy_first sk | _ => 0 end;
  p_x_dh := fun sk pk => fun i => match i with O => toy_first sk + toy_first pk | _ => 0 end
|}.

(* ---------------------------------------------------------------- C12 *)
(** Decrypting what was encrypted gives the message back, for every key, message, source of
    randomness and every stream cipher and MAC; the ciphertext is 44 bytes longer. *)
Theorem auth_enc_roundtrip : forall P r key msg,
  let c := fst (auth_encrypt P r key msg) in
  auth_decrypt P key c = Ret (Ok msg) /\ length c = (length msg + 44)%nat.
Proof. intros. split; [apply auth_roundtrip|apply auth_encrypt_length]. Qed.
(** It uses exactly 12 bytes of randomness, which travel in clear before the tag: equal keys,
    nonces and messages give equal ciphertexts and the nonce is recoverable. *)
Theorem auth_enc_nonce : forall P r key msg,
  let c := fst (auth_encrypt P r key msg) in
  firstn 12 (skipn (length msg) c) = fst (draw 12 r) /\
  snd (auth_encrypt P r key msg) = snd (draw 12 r).
Proof.
  intros P r key msg c. split; [|apply auth_encrypt_rest]. subst c.
  unfold auth_encrypt. destruct (draw NONCELEN r) as [n r1] eqn:E. cbn [fst].
  assert (L : length n = 12%nat) by (replace n with (fst (draw NONCELEN r)) by (rewrite E; reflexivity); apply draw_length).
  rewrite <- app_assoc. rewrite <- (stream_xor_length P (firstn 32 key) n msg) at 1.
  rewrite skipn_app, skipn_all, Nat.sub_diag. cbn [app skipn].
  rewrite firstn_app, L, Nat.sub_diag, <- L, firstn_all. cbn [firstn]. rewrite app_nil_r.
  unfold NONCELEN in E. rewrite L, E. reflexivity.
Qed.

(* ---------------------------------------------------------------- C13 *)
(** Acceptance implies that the last 32 bytes are the MAC, under the second half of the key,
    of everything before them. *)
Theorem auth_dec_accepts_only_macced : forall P key c m,
  auth_decrypt P key c = Ret (Ok m) ->
  exists body tag, c = body ++ tag /\ length tag = 32%nat /\
    tag = hmac P (skipn 32 key) body /\ length body = (length m + 12)%nat.
Proof.
  intros P key c m H. apply auth_decrypt_ok_inv in H. destruct H as [b [n [-> [L ->]]]].
  exists (b ++ n), (hmac P (skipn 32 key) (b ++ n)). rewrite app_assoc.
  split; [reflexivity|]. split; [apply hmac_length|]. split; [reflexivity|].
  rewrite app_length, L, stream_xor_length. lia.
Qed.
(** Conversely every such string is accepted. *)
Theorem auth_dec_accepts_iff : forall P key c,
  (exists m, auth_decrypt P key c = Ret (Ok m)) <->
  (44 <= length c)%nat /\
  skipn (length c - 32) c = hmac P (skipn 32 key) (firstn (length c - 32) c).
Proof.
  intros P key c. split.
  - intros [m H]. apply auth_dec_accepts_only_macced in H. destruct H as [b [t [-> [L [E Lb]]]]].
    rewrite app_length, L. replace (length b + 32 - 32)%nat with (length b) by lia.
    rewrite skipn_app, firstn_app, skipn_all, firstn_all, Nat.sub_diag. cbn [app skipn firstn].
    rewrite app_nil_r. split; [lia|exact E].
  - intros [H E]. unfold auth_decrypt, split_last, TAGLEN, NONCELEN.
    replace (32 <=? length c)%nat with true by (symmetry; apply Nat.leb_le; lia). cbn [obind].
    assert (L : length (firstn (length c - 32) c) = (length c - 32)%nat) by (apply firstn_length_le; lia).
    rewrite L. replace (12 <=? length c - 32)%nat with true by (symmetry; apply Nat.leb_le; lia). cbn [obind].
    rewrite <- E, beq_refl. eexists. reflexivity.
Qed.
(** A change confined to the tag is always rejected (with an error, not a panic). *)
Theorem auth_dec_rejects_changed_tag : forall P r key msg tag',
  let c := fst (auth_encrypt P r key msg) in
  let body := firstn (length c - 32) c in
  length tag' = 32%nat -> body ++ tag' <> c ->
  auth_decrypt P key (body ++ tag') = Ret (Err tt).
Proof.
  intros P r key msg tag' c body L D.
  assert (Lc : length c = (length msg + 44)%nat) by (apply auth_encrypt_length).
  destruct (auth_dec_accepts_iff P key c) as [A _].
  destruct A as [_ A]; [exists msg; apply auth_roundtrip|].
  assert (Lb : length body = (length c - 32)%nat) by (apply firstn_length_le; lia).
  destruct (auth_decrypt P key (body ++ tag')) as [[m|[]]|] eqn:E; [exfalso|reflexivity|exfalso].
  - apply auth_dec_accepts_only_macced in E. destruct E as [b [t [E1 [L2 [E2 _]]]]].
    assert (b = body /\ t = tag') as [-> ->].
    { assert (length b = length body).
      { apply (f_equal (@length Z)) in E1. rewrite !app_length in E1. lia. }
      clear - E1 H. revert b E1 H. generalize body as x.
      induction x as [|y x IH]; intros [|z b] E1 H; cbn in *; try discriminate; auto.
      - injection E1 as -> E1. destruct (IH b E1) as [-> ->]; auto. }
    apply D. rewrite E2. unfold body at 1 2. unfold body in *. rewrite <- A. apply firstn_skipn.
  - apply auth_decrypt_panic in E. rewrite app_length in E. lia.
Qed.
(** A change to the body that keeps the tag is accepted only if the two bodies collide under
    the MAC. *)
Theorem auth_dec_changed_body_is_collision : forall P r key msg body' m,
  let c := fst (auth_encrypt P r key msg) in
  let body := firstn (length c - 32) c in
  let tag := skipn (length c - 32) c in
  auth_decrypt P key (body' ++ tag) = Ret (Ok m) ->
  hmac P (skipn 32 key) body' = hmac P (skipn 32 key) body.
Proof.
  intros P r key msg body' m c body tag H.
  assert (Lc : length c = (length msg + 44)%nat) by (apply auth_encrypt_length).
  destruct (auth_dec_accepts_iff P key c) as [A _].
  destruct A as [_ A]; [exists msg; apply auth_roundtrip|].
  destruct (auth_dec_accepts_iff P key (body' ++ tag)) as [B _].
  destruct B as [_ B]; [exists m; exact H|].
  assert (Lt : length tag = 32%nat) by (unfold tag; rewrite skipn_length; lia).
  rewrite app_length, Lt in B. replace (length body' + 32 - 32)%nat with (length body') in B by lia.
  rewrite skipn_app, firstn_app, skipn_all, firstn_all, Nat.sub_diag, skipn_O, firstn_O, app_nil_r in B.
  cbn [app] in B. rewrite <- B. unfold tag, body. exact A.
Qed.

(* ---------------------------------------------------------------- C14 *)
(** Refutation of "auth_decrypt always returns a Result": it panics exactly on inputs shorter
    than 44 bytes. *)
Theorem auth_dec_panics_iff_short : forall P key c,
  auth_decrypt P key c = Panic <-> (length c < 44)%nat.
Proof. intros. apply auth_decrypt_panic. Qed.
Theorem auth_dec_total_refuted : ~ (forall P key c, auth_decrypt P key c <> Panic).
Proof. intro H. apply (H toy_prims [] []). apply auth_decrypt_panic. cbn. lia. Qed.

(* ---------------------------------------------------------------- C15 *)
(** Encryption then decryption, and decryption then encryption, are the identity on blocks of
    at least 32 bytes; lengths are preserved. *)
Theorem wide_block_inverse : forall P key x, (32 <= length x)%nat ->
  (exists y, wide_block_encrypt P key x = Ret y /\ length y = length x /\
             wide_block_decrypt P key y = Ret x) /\
  (exists y, wide_block_decrypt P key x = Ret y /\ length y = length x /\
             wide_block_encrypt P key y = Ret x).
Proof.
  intros P key x H. split.
  - destruct (wbc_roundtrip P key x H) as [y [A [B C]]]. eauto.
  - destruct (wbc_roundtrip_dec P key x H) as [y [A [B C]]]. eauto.
Qed.
Theorem wide_block_injective : forall P key x x' y,
  wide_block_encrypt P key x = Ret y -> wide_block_encrypt P key x' = Ret y -> x = x'.
Proof.
  assert (S : forall P key x y, wide_block_encrypt P key x = Ret y -> (32 <= length x)%nat).
  { intros P key x y H. destruct (Nat.le_gt_cases 32 (length x)) as [L|L]; [exact L|exfalso].
    unfold wide_block_encrypt in H.
    assert (E : round_r0 P key x = Panic); [|rewrite E in H; discriminate].
    unfold round_r0. destruct (split_at 16 x) as [[l r]|] eqn:E; [|reflexivity].
    apply split_at_inv in E. destruct E as [-> L1]. rewrite app_length, L1 in L. cbn [obind].
    replace (split_at 16 r) with (@Panic (bytes * bytes)); [reflexivity|].
    symmetry. apply split_at_panic. lia. }
  intros P key x x' y H H'.
  destruct (wbc_roundtrip P key x (S _ _ _ _ H)) as [z [A [B _]]]. rewrite A in H. injection H as ->.
  destruct (wbc_roundtrip P key x' (S _ _ _ _ H')) as [z [A' [B' _]]]. rewrite A' in H'. injection H' as ->.
  rewrite B in B'. injection B' as ->. reflexivity.
Qed.
(** Blocks shorter than 32 bytes abort, in both directions. *)
Theorem wide_block_short_panics : forall P key x,
  (wide_block_encrypt P key x = Panic <-> (length x < 32)%nat) /\
  (wide_block_decrypt P key x = Panic <-> (length x < 32)%nat).
Proof.
  assert (R0 : forall P key x, (length x < 32)%nat -> round_r0 P key x = Panic).
  { intros P key x L. unfold round_r0. destruct (split_at 16 x) as [[l r]|] eqn:E; [|reflexivity].
    apply split_at_inv in E. destruct E as [-> L1]. rewrite app_length, L1 in L. cbn [obind].
    replace (split_at 16 r) with (@Panic (bytes * bytes)); [reflexivity|].
    symmetry. apply split_at_panic. lia. }
  intros P key x. split; split; intro H.
  - destruct (Nat.le_gt_cases 32 (length x)) as [L|L]; [exfalso|exact L].
    destruct (wbc_roundtrip P key x L) as [y [A _]]. rewrite A in H. discriminate.
  - unfold wide_block_encrypt. rewrite R0 by exact H. reflexivity.
  - destruct (Nat.le_gt_cases 32 (length x)) as [L|L]; [exfalso|exact L].
    destruct (wbc_roundtrip_dec P key x L) as [y [A _]]. rewrite A in H. discriminate.
  - unfold wide_block_decrypt.
    destruct (Nat.le_gt_cases 16 (length x)) as [L|L].
    + assert (X : exists l r, x = l ++ r /\ length l = 16%nat).
      { exists (firstn 16 x), (skipn 16 x). rewrite firstn_skipn. split; [reflexivity|apply firstn_length_le; exact L]. }
      destruct X as [l [r [-> Ll]]].
      rewrite app_length, Ll in H.
      rewrite round_l0_eq by exact Ll. cbn [obind].
      rewrite round_r_eq by (apply xb16; exact Ll). cbn [obind].
      rewrite round_l_eq by (apply xb16; exact Ll). cbn [obind].
      apply R0. rewrite !app_length, !xb16 by (repeat apply xb16; exact Ll).
      rewrite xor_bytes_length, eval_deck_length. lia.
    + unfold round_l0. replace (split_at 16 x) with (@Panic (bytes * bytes)); [reflexivity|].
      symmetry. apply split_at_panic. lia.
Qed.
Example wide_block_runs : exists y, wide_block_encrypt toy_prims [1;2] (repeat 9 40) = Ret y /\ y <> repeat 9 40.
Proof. eexists. split; [vm_compute; reflexivity|discriminate]. Qed.
