(** * PropsKeccak: the SHA-3 and SHAKE functions of fips202.c compute the functions of FIPS 202
    (C60), and the streams that the Dilithium2 code reads are the SHAKE streams of what it has
    absorbed (C61). *)
From Coq Require Import ZArith List Lia Bool.
From Verif Require Import Base Bits Keccak KeccakSpec KeccakPerm KeccakSponge KeccakProps.
Import ListNotations.
Open Scope Z_scope.
Local Opaque StatePermute keccak_f.

(** ** One-shot and incremental XOF sessions *)
(** Squeeze calls one after the other. *)
Fixpoint squeezes (sq : nat -> incctx -> bytes * incctx) (sizes : list nat) (c : incctx) : list bytes * incctx :=
  match sizes with
  | [] => ([], c)
  | n :: t => let (o, c) := sq n c in let (os, c) := squeezes sq t c in (o :: os, c)
  end.
(** init; absorb each chunk; finalize; squeeze each size. *)
Definition shake128_session (chunks : list bytes) (sizes : list nat) : list bytes :=
  fst (squeezes shake128_inc_squeeze sizes (shake128_inc_finalize (fold_left shake128_inc_absorb chunks shake128_inc_init))).
Definition shake256_session (chunks : list bytes) (sizes : list nat) : list bytes :=
  fst (squeezes shake256_inc_squeeze sizes (shake256_inc_finalize (fold_left shake256_inc_absorb chunks shake256_inc_init))).
(** absorb the whole message, squeeze blocks n1, then n2, ... *)
Fixpoint squeeze_calls (sq : nat -> list Z -> bytes * list Z) (blocks : list nat) (s : list Z) : list bytes :=
  match blocks with
  | [] => []
  | n :: t => let (o, s) := sq n s in o :: squeeze_calls sq t s
  end.
(** init; absorb each chunk; finalize with the digest. *)
Definition sha3_session (r outlen : nat) (chunks : list bytes) : bytes :=
  sha3_inc_finalize r outlen (fold_left (keccak_inc_absorb r) chunks keccak_inc_init).

(** A string cut into pieces of the given sizes. *)
Fixpoint cut (l : bytes) (sizes : list nat) : list bytes :=
  match sizes with [] => [] | n :: t => firstn n l :: cut (skipn n l) t end.
Definition total (l : list nat) : nat := fold_right Nat.add 0%nat l.

Lemma rate168 : rate 168. Proof. exists 21%nat. split; [reflexivity|lia]. Qed.
Lemma rate136 : rate 136. Proof. exists 17%nat. split; [reflexivity|lia]. Qed.
Lemma rate104 : rate 104. Proof. exists 13%nat. split; [reflexivity|lia]. Qed.
Lemma rate72 : rate 72. Proof. exists 9%nat. split; [reflexivity|lia]. Qed.

Lemma obyte_byte : forall r F j, is_byte (obyte r F j).
Proof. intros. unfold obyte, state_byte. apply u8_range. Qed.
Lemma obytes_bytes : forall r F l, is_bytes (map (obyte r F) l).
Proof. intros. apply Forall_map, Forall_forall. intros. apply obyte_byte. Qed.
Lemma bits_of_byte_inj : forall a b, is_byte a -> is_byte b -> bits_of_byte a = bits_of_byte b -> a = b.
Proof.
  intros a b A B E. apply (bits_eq_below 8); [lia|exact A|exact B|]. intros n N.
  rewrite <- (Z2Nat.id n) by lia. rewrite <- !nth_bits_of_byte by lia. rewrite E. reflexivity.
Qed.
Lemma bits_of_bytes_inj : forall a b, is_bytes a -> is_bytes b -> bits_of_bytes a = bits_of_bytes b -> a = b.
Proof.
  intro a. induction a as [|x a IH]; intros b A B E; destruct b as [|y b]; try discriminate E; [reflexivity|].
  change (bits_of_byte x ++ bits_of_bytes a = bits_of_byte y ++ bits_of_bytes b) in E.
  inversion A; subst. inversion B; subst.
  pose proof (f_equal (firstn 8) E) as E1. pose proof (f_equal (skipn 8) E) as E2.
  rewrite !firstn_app, !bits_of_byte_length, Nat.sub_diag, !firstn_O, !app_nil_r, !firstn_all2 in E1 by (rewrite bits_of_byte_length; lia).
  rewrite !skipn_app, !bits_of_byte_length, Nat.sub_diag, !skipn_all2 in E2 by (rewrite bits_of_byte_length; lia).
  f_equal; [apply bits_of_byte_inj; assumption|apply IH; assumption].
Qed.

Lemma absorb_chunks : forall r, rate r -> forall chunks M, is_bytes M -> Forall is_bytes chunks ->
  fold_left (keccak_inc_absorb r) chunks (inc_of r M) = inc_of r (M ++ concat chunks).
Proof.
  intros r R chunks. induction chunks as [|c t IH]; intros M B F; [cbn [fold_left concat]; rewrite app_nil_r; reflexivity|].
  inversion F; subst. cbn [fold_left concat]. rewrite inc_absorb_any by assumption. rewrite IH, app_assoc; [reflexivity| |assumption].
  apply Forall_app; split; assumption.
Qed.
Lemma concat_bytes : forall l, Forall is_bytes l -> is_bytes (concat l).
Proof. intros l F. induction F; [constructor|]. cbn [concat]. apply Forall_app; split; assumption. Qed.
Lemma session_start : forall r p chunks, rate r -> Forall is_bytes chunks -> 0 <= p < 128 ->
  keccak_inc_finalize r p (fold_left (keccak_inc_absorb r) chunks keccak_inc_init) = (padstate r p (concat chunks), 0%nat).
Proof.
  intros r p chunks R F P. pose proof (rate_bounds r R). rewrite (inc_init_of r) by lia. rewrite absorb_chunks; [|assumption|constructor|assumption].
  rewrite app_nil_l. apply finalize_any; [assumption|apply concat_bytes; assumption|assumption].
Qed.
Lemma map_seq_skipn : forall A (f : nat -> A) n p m, skipn n (map f (seq p m)) = map f (seq (p + n) (m - n)).
Proof.
  intros A f n. induction n as [|n IH]; intros p m; [rewrite Nat.add_0_r, Nat.sub_0_r; reflexivity|].
  destruct m as [|m]; [reflexivity|]. cbn [seq map skipn Nat.sub]. rewrite IH. do 2 f_equal. lia.
Qed.
Lemma firstn_map_seq' : forall A (f : nat -> A) n p m, (n <= m)%nat -> firstn n (map f (seq p m)) = map f (seq p n).
Proof.
  intros A f n p m L. replace m with (n + (m - n))%nat by lia. rewrite seq_app, map_app, firstn_app, map_length, seq_length, Nat.sub_diag, firstn_O, app_nil_r.
  apply firstn_all2. rewrite map_length, seq_length. lia.
Qed.
Lemma squeezes_eq : forall r F, (0 < r)%nat -> forall sizes p,
  fst (squeezes (keccak_inc_squeeze r) sizes (sq_at r F p)) = cut (map (obyte r F) (seq p (total sizes))) sizes.
Proof.
  intros r F R sizes. induction sizes as [|n t IH]; intro p; [reflexivity|]. cbn [squeezes cut]. rewrite inc_squeeze_any by exact R.
  specialize (IH (p + n)%nat). destruct (squeezes _ t _) as [os c]. cbn [fst] in *. change (total (n :: t)) with (n + total t)%nat.
  rewrite firstn_map_seq', map_seq_skipn by lia. replace (n + total t - n)%nat with (total t) by lia. rewrite IH. reflexivity.
Qed.
Lemma calls_eq : forall r F, rate r -> wf F -> forall blocks k,
  squeeze_calls (fun n => keccak_squeezeblocks n r) blocks (Nat.iter k StatePermute F) =
  cut (map (obyte r F) (seq (k * r) (total blocks * r))) (map (fun n => n * r)%nat blocks).
Proof.
  intros r F R W blocks. induction blocks as [|n t IH]; intro k; [reflexivity|]. cbn [squeeze_calls cut map]. rewrite squeezeblocks_eq by assumption.
  rewrite IH. change (total (n :: t)) with (n + total t)%nat. rewrite firstn_map_seq' by lia. rewrite map_seq_skipn. f_equal. do 3 f_equal; lia.
Qed.
Lemma c_shake_eq : forall r n m, rate r -> is_bytes m -> c_shake r n m = map (obyte r (padstate r 31 m)) (seq 0 n).
Proof.
  intros r n m R B. pose proof (rate_bounds r R) as RB. unfold c_shake. destruct (finalize_any r 31 m R B ltac:(lia)) as [_ E]. rewrite E.
  assert (W : wf (padstate r 31 m)) by (apply padstate_wf; (assumption || lia)). set (F := padstate r 31 m) in *.
  change F with (Nat.iter 0 StatePermute F) at 1. rewrite squeezeblocks_eq by assumption. rewrite !Nat.add_0_l, Nat.mul_0_l.
  pose proof (Nat.div_mod n r ltac:(lia)) as D. pose proof (Nat.mod_upper_bound n r ltac:(lia)) as M. set (q := (n / r)%nat) in *.
  assert (EN : n = (q * r + (n - q * r))%nat) by lia.
  destruct (Nat.eqb_spec (n - q * r) 0) as [Z0|NZ].
  - do 2 f_equal. lia.
  - rewrite squeezeblocks_eq by assumption. rewrite Nat.mul_1_l, firstn_map_seq', <- map_app by lia. f_equal. rewrite EN at 2. rewrite seq_app. reflexivity.
Qed.
Lemma c_sha3_eq : forall r n m, rate r -> is_bytes m -> (n <= r)%nat -> c_sha3 r n m = map (obyte r (padstate r 6 m)) (seq 0 n).
Proof.
  intros r n m R B L. pose proof (rate_bounds r R) as RB. unfold c_sha3. destruct (finalize_any r 6 m R B ltac:(lia)) as [_ E]. rewrite E.
  assert (W : wf (padstate r 6 m)) by (apply padstate_wf; (assumption || lia)). set (F := padstate r 6 m) in *.
  change F with (Nat.iter 0 StatePermute F) at 1. rewrite squeezeblocks_eq by assumption. rewrite Nat.mul_0_l, Nat.mul_1_l. apply firstn_map_seq', L.
Qed.
Lemma sha3_session_eq : forall r n chunks, rate r -> Forall is_bytes chunks -> (n <= r)%nat ->
  sha3_session r n chunks = map (obyte r (padstate r 6 (concat chunks))) (seq 0 n).
Proof.
  intros r n chunks R B L. pose proof (rate_bounds r R) as RB. unfold sha3_session, sha3_inc_finalize. rewrite session_start by (assumption || lia).
  assert (W : wf (padstate r 6 (concat chunks))) by (apply padstate_wf; [lia|apply concat_bytes, B]). set (F := padstate r 6 (concat chunks)) in *.
  change F with (Nat.iter 0 StatePermute F) at 1. rewrite squeezeblocks_eq by assumption. rewrite Nat.mul_0_l, Nat.mul_1_l. apply firstn_map_seq', L.
Qed.

(** ** C60 *)
(** [H m n] is the n-byte digest of m: its bits are the bits of the standard's function. *)
Definition is_xof (spec : list bool -> nat -> list bool) (m : bytes) (n : nat) (out : bytes) : Prop :=
  is_bytes out /\ List.length out = n /\ bits_of_bytes out = spec (bits_of_bytes m) (8 * n)%nat.
(** The standard determines the output. *)
Theorem is_xof_unique : forall spec m n a b, is_xof spec m n a -> is_xof spec m n b -> a = b.
Proof. intros spec m n a b (A & _ & EA) (B & _ & EB). apply bits_of_bytes_inj; congruence. Qed.

Lemma obytes_xof : forall r p sfx m n, rate r -> domain p sfx -> is_bytes m ->
  is_xof (fun M d => sponge (8 * r) (M ++ sfx) d) m n (map (obyte r (padstate r p m)) (seq 0 n)).
Proof.
  intros r p sfx m n R D B. split; [apply obytes_bytes|]. split; [rewrite map_length, seq_length; reflexivity|].
  symmetry. apply sponge_ok; assumption.
Qed.

Theorem shake128_fips202 : forall m n, is_bytes m -> is_xof SHAKE128 m n (c_shake128 n m).
Proof.
  intros m n B. unfold c_shake128, R_SHAKE128. rewrite c_shake_eq by (apply rate168 || assumption).
  exact (obytes_xof 168 31 [true; true; true; true] m n rate168 shake_domain B).
Qed.
Theorem shake256_fips202 : forall m n, is_bytes m -> is_xof SHAKE256 m n (c_shake256 n m).
Proof.
  intros m n B. unfold c_shake256, R_SHAKE256. rewrite c_shake_eq by (apply rate136 || assumption).
  exact (obytes_xof 136 31 [true; true; true; true] m n rate136 shake_domain B).
Qed.
Theorem sha3_256_fips202 : forall m, is_bytes m -> is_xof (fun M _ => SHA3_256 M) m 32 (c_sha3_256 m).
Proof.
  intros m B. unfold c_sha3_256, R_SHA3_256. rewrite c_sha3_eq by (apply rate136 || assumption || lia).
  exact (obytes_xof 136 6 [false; true] m 32 rate136 sha3_domain B).
Qed.
Theorem sha3_384_fips202 : forall m, is_bytes m -> is_xof (fun M _ => SHA3_384 M) m 48 (c_sha3_384 m).
Proof.
  intros m B. unfold c_sha3_384, R_SHA3_384. rewrite c_sha3_eq by (apply rate104 || assumption || lia).
  exact (obytes_xof 104 6 [false; true] m 48 rate104 sha3_domain B).
Qed.
Theorem sha3_512_fips202 : forall m, is_bytes m -> is_xof (fun M _ => SHA3_512 M) m 64 (c_sha3_512 m).
Proof.
  intros m B. unfold c_sha3_512, R_SHA3_512. rewrite c_sha3_eq by (apply rate72 || assumption || lia).
  exact (obytes_xof 72 6 [false; true] m 64 rate72 sha3_domain B).
Qed.
(** However the message is cut into absorb calls and the output into squeeze calls, the calls
    return the pieces of the one-shot output. *)
Theorem shake128_incremental : forall chunks sizes, Forall is_bytes chunks ->
  shake128_session chunks sizes = cut (c_shake128 (total sizes) (concat chunks)) sizes.
Proof.
  intros chunks sizes B. unfold shake128_session, c_shake128, R_SHAKE128. rewrite c_shake_eq by (apply rate168 || apply concat_bytes, B).
  unfold shake128_inc_finalize, shake128_inc_init. change (fold_left shake128_inc_absorb chunks) with (fold_left (keccak_inc_absorb 168) chunks).
  unfold R_SHAKE128. rewrite session_start by (apply rate168 || assumption || lia). rewrite <- (sq_at_0 168) by lia.
  change shake128_inc_squeeze with (keccak_inc_squeeze 168). apply squeezes_eq. lia.
Qed.
Theorem shake256_incremental : forall chunks sizes, Forall is_bytes chunks ->
  shake256_session chunks sizes = cut (c_shake256 (total sizes) (concat chunks)) sizes.
Proof.
  intros chunks sizes B. unfold shake256_session, c_shake256, R_SHAKE256. rewrite c_shake_eq by (apply rate136 || apply concat_bytes, B).
  unfold shake256_inc_finalize, shake256_inc_init. change (fold_left shake256_inc_absorb chunks) with (fold_left (keccak_inc_absorb 136) chunks).
  unfold R_SHAKE256. rewrite session_start by (apply rate136 || assumption || lia). rewrite <- (sq_at_0 136) by lia.
  change shake256_inc_squeeze with (keccak_inc_squeeze 136). apply squeezes_eq. lia.
Qed.
(** The interface that squeezes whole blocks. *)
Theorem shake128_blocks : forall m blocks, is_bytes m ->
  squeeze_calls shake128_squeezeblocks blocks (shake128_absorb m) = cut (c_shake128 (168 * total blocks) m) (map (Nat.mul 168) blocks).
Proof.
  intros m blocks B. unfold c_shake128, R_SHAKE128. rewrite c_shake_eq by (apply rate168 || assumption). unfold shake128_absorb, R_SHAKE128.
  destruct (finalize_any 168 31 m rate168 B ltac:(lia)) as [_ E]. rewrite E.
  assert (W : wf (padstate 168 31 m)) by (apply padstate_wf; (assumption || lia)).
  rewrite (map_ext (Nat.mul 168) (fun n => n * 168)%nat) by (intro; apply Nat.mul_comm). rewrite (Nat.mul_comm 168).
  exact (calls_eq 168 _ rate168 W blocks 0).
Qed.
Theorem shake256_blocks : forall m blocks, is_bytes m ->
  squeeze_calls shake256_squeezeblocks blocks (shake256_absorb m) = cut (c_shake256 (136 * total blocks) m) (map (Nat.mul 136) blocks).
Proof.
  intros m blocks B. unfold c_shake256, R_SHAKE256. rewrite c_shake_eq by (apply rate136 || assumption). unfold shake256_absorb, R_SHAKE256.
  destruct (finalize_any 136 31 m rate136 B ltac:(lia)) as [_ E]. rewrite E.
  assert (W : wf (padstate 136 31 m)) by (apply padstate_wf; (assumption || lia)).
  rewrite (map_ext (Nat.mul 136) (fun n => n * 136)%nat) by (intro; apply Nat.mul_comm). rewrite (Nat.mul_comm 136).
  exact (calls_eq 136 _ rate136 W blocks 0).
Qed.
Theorem sha3_incremental : forall chunks, Forall is_bytes chunks ->
  sha3_session R_SHA3_256 32 chunks = c_sha3_256 (concat chunks) /\
  sha3_session R_SHA3_384 48 chunks = c_sha3_384 (concat chunks) /\
  sha3_session R_SHA3_512 64 chunks = c_sha3_512 (concat chunks).
Proof.
  intros chunks B. assert (CB := concat_bytes chunks B). unfold c_sha3_256, c_sha3_384, c_sha3_512, R_SHA3_256, R_SHA3_384, R_SHA3_512.
  rewrite !sha3_session_eq by (apply rate136 || apply rate104 || apply rate72 || assumption || lia).
  rewrite !c_sha3_eq by (apply rate136 || apply rate104 || apply rate72 || assumption || lia). repeat split; reflexivity.
Qed.
(** A shorter output is a prefix of a longer one. *)
Theorem shake_prefix : forall m a b, is_bytes m ->
  firstn a (c_shake128 (a + b) m) = c_shake128 a m /\ firstn a (c_shake256 (a + b) m) = c_shake256 a m.
Proof.
  intros m a b B. unfold c_shake128, c_shake256, R_SHAKE128, R_SHAKE256. rewrite !c_shake_eq by (apply rate168 || apply rate136 || assumption).
  split; apply firstn_map_seq'; lia.
Qed.
