(** * AllOpen: signed messages on every build, with the buffers of the wrapper (C92).

    [sign] and [open] of pqcrypto's dilithium2.rs hand the C code a vector of which only the capacity
    exists, let it write, and then declare a length: if a byte below that length was not written, or
    one beyond the capacity was, the behaviour is undefined. *)
From Coq Require Import ZArith List Lia Bool.
From Verif Require Import Base DilArith DilNtt DilPoly DilPack DilSample DilSign DilCorrect DilProps DilShake DilShake2.
From Verif Require Import KeccakX4 AvxMachine AvxSign AvxSample AvxSignOk AvxSignOk2 AvxShake AvxShake2 AvxKeypair.
From Verif Require Import A64Sample A64Sign A64SignOk A64SignOk2 A64Props A64Keccak A64Fips A64Shake A64Keypair AllBuilds AllBuilds2.
From Verif Require KeccakSpec KeccakSponge.
Import ListNotations.
Open Scope Z_scope.
Local Opaque keypair64_c keypair_avx_c keypair_c keypair_det sign_signature64_c sign_signature_avx_c sign_c sign_signature verify_signature64_c verify_signature_avx_c verify_c verify_signature fips_xof.

(** ** Memory *)
(** An allocation: each byte is written ([Some]) or not yet ([None]). *)
Definition mem := list (option Z).
(** A store, a load, the loads of [n] consecutive bytes; outside the allocation a store is undefined,
    and a load also where nothing was stored. *)
Definition write (b : mem) (i : nat) (v : Z) : crun mem :=
  if (i <? length b)%nat then CRet (firstn i b ++ Some v :: skipn (S i) b) else CUB.
Definition load (b : mem) (i : nat) : crun Z := match nth_error b i with Some (Some v) => CRet v | _ => CUB end.
Definition loads (b : mem) (off n : nat) : crun bytes := mapM (load b) (seq off n).
(** [Vec::with_capacity], and the contents of the vector after [set_len]. *)
Definition with_capacity (n : nat) : mem := repeat None n.
Definition set_len (b : mem) (n : nat) : crun bytes := loads b 0 n.

(** dilithium2.rs 226-262 ([sign]) around sign.c 227-240 (clean), 256-266 (avx2), 233-245 (aarch64):
    the message is copied, last byte first, behind the place of the signature, and signed there.
    What the vector held where the AVX2 code writes the signature is part of the build. *)
Definition wrap_sign (b : build) (att fuel : nat) (m sk : bytes) : crun bytes :=
  let mlen := length m in
  let sm := with_capacity (mlen + 2420) in
  do sm <- foldM (fun sm i => write sm (2420 + mlen - 1 - i) (at_ m (mlen - 1 - i))) (seq 0 mlen) sm ;;
  do m' <- loads sm 2420 mlen ;;
  do sig <- sign_of b att fuel m' sk ;;
  do sm <- foldM (fun sm i => write sm i (at_ sig i)) (seq 0 2420) sm ;;
  set_len sm (2420 + mlen).
(** dilithium2.rs 264-307 ([open]) around sign.c 342-372 (clean), 388-414 (avx2), 349-380 (aarch64):
    [Some] is [Ok], [None] the error; on failure the capacity is cleared. *)
Definition wrap_open (b : build) (fuel : nat) (sm pk : bytes) : crun (option bytes) :=
  let smlen := length sm in
  let m := with_capacity smlen in
  let badsig := do m <- foldM (fun m i => write m i 0) (seq 0 smlen) m ;; CRet None in
  if (smlen <? 2420)%nat then badsig else
  let mlen := (smlen - 2420)%nat in
  do ok <- verify_of b fuel (firstn 2420 sm) (skipn 2420 sm) pk ;;
  if (ok : bool) then
    do m <- foldM (fun m i => write m i (at_ sm (2420 + i))) (seq 0 mlen) m ;;
    do r <- set_len m mlen ;; CRet (Some r)
  else badsig.
(** The loops of the C functions when, as their description allows, the output is the input
    ("can be equal to m", "can be equal to sm"): [crypto_sign] moves the message up, [crypto_sign_open] down. *)
Definition move_up (mlen : nat) (sm : mem) : crun mem :=
  foldM (fun sm i => do v <- load sm (mlen - 1 - i) ;; write sm (2420 + mlen - 1 - i) v) (seq 0 mlen) sm.
Definition move_down (mlen : nat) (sm : mem) : crun mem :=
  foldM (fun sm i => do v <- load sm (2420 + i) ;; write sm i v) (seq 0 mlen) sm.

(** ** Loops *)
Lemma ne_firstn : forall (b : mem) i j, (j < i)%nat -> nth_error (firstn i b) j = nth_error b j.
Proof. intros b i. revert b. induction i as [|i IH]; intros [|x b] j H; try lia; [destruct j; reflexivity|]. destruct j as [|j]; [reflexivity|]. cbn. apply IH. lia. Qed.
Lemma ne_skipn : forall (b : mem) n k, nth_error (skipn n b) k = nth_error b (n + k).
Proof. intros b n. revert b. induction n as [|n IH]; intros [|x b] k; cbn; try reflexivity; [destruct k; reflexivity|apply IH]. Qed.
Lemma write_ok : forall b i v, (i < length b)%nat -> exists b', write b i v = CRet b' /\ length b' = length b /\
  nth_error b' i = Some (Some v) /\ forall j, j <> i -> nth_error b' j = nth_error b j.
Proof.
  intros b i v L. unfold write. rewrite (proj2 (Nat.ltb_lt _ _) L). eexists. split; [reflexivity|].
  assert (Lf : length (firstn i b) = i) by (rewrite firstn_length; lia).
  split; [rewrite app_length; cbn [length]; rewrite Lf, skipn_length; lia|].
  split; [rewrite nth_error_app2 by lia; rewrite Lf, Nat.sub_diag; reflexivity|].
  intros j N. destruct (Nat.lt_ge_cases j i) as [H|H].
  - rewrite nth_error_app1 by lia. apply ne_firstn. exact H.
  - rewrite nth_error_app2 by lia. rewrite Lf. destruct (j - i)%nat as [|d] eqn:E; [lia|]. cbn [nth_error].
    rewrite ne_skipn. f_equal. lia.
Qed.
(** Stores at [f i], for [i] of a list, of the byte that belongs there. *)
Lemma writes_ok : forall (h : nat -> Z) (f : nat -> nat) (g : nat -> Z) is b,
  (forall i, In i is -> (f i < length b)%nat /\ g i = h (f i)) ->
  exists b', foldM (fun b i => write b (f i) (g i)) is b = CRet b' /\ length b' = length b /\
    (forall j, In j (map f is) -> nth_error b' j = Some (Some (h j))) /\
    (forall j, ~ In j (map f is) -> nth_error b' j = nth_error b j).
Proof.
  intros h f g is. induction is as [|i is IH]; intros b H.
  - exists b. split; [reflexivity|]. split; [reflexivity|]. split; [intros j []|reflexivity].
  - destruct (H i (or_introl eq_refl)) as [L G]. destruct (write_ok b (f i) (g i) L) as (b1 & E1 & L1 & S1 & O1).
    destruct (IH b1) as (b2 & E2 & L2 & S2 & O2). { intros k Hk. rewrite L1. apply H. right. exact Hk. }
    exists b2. cbn [foldM]. rewrite E1. cbn [cbind]. split; [exact E2|]. split; [congruence|]. cbn [map]. split.
    + intros j [<-|Hj]; [|apply S2; exact Hj]. destruct (in_dec Nat.eq_dec (f i) (map f is)) as [X|X]; [apply S2; exact X|].
      rewrite O2 by exact X. rewrite S1, G. reflexivity.
    + intros j Hj. rewrite O2 by (intro X; apply Hj; right; exact X). apply O1. intro X. apply Hj. left. congruence.
Qed.
Lemma loads_ok : forall l b off, (forall k, (k < length l)%nat -> nth_error b (off + k) = Some (Some (at_ l k))) -> loads b off (length l) = CRet l.
Proof.
  unfold loads. induction l as [|x l IH]; intros b off H; [reflexivity|]. cbn [length seq mapM].
  unfold load at 1. pose proof (H 0%nat ltac:(cbn; lia)) as H0. rewrite Nat.add_0_r in H0. rewrite H0. cbn [cbind at_ nth].
  rewrite (IH b (S off)); [reflexivity|]. intros k Hk. specialize (H (S k) ltac:(cbn; lia)). rewrite Nat.add_succ_r in H. exact H.
Qed.
Lemma foldM_ext : forall S X (f g : S -> X -> crun S) l s, (forall s x, In x l -> f s x = g s x) -> foldM f l s = foldM g l s.
Proof.
  intros S X f g l. induction l as [|x l IH]; intros s H; [reflexivity|]. cbn [foldM]. rewrite (H s x) by (left; reflexivity).
  destruct (g s x); cbn [cbind]; try reflexivity. apply IH. intros s' y Hy. apply H. right. exact Hy.
Qed.
Lemma at_skipn : forall (l : bytes) n k, at_ (skipn n l) k = at_ l (n + k).
Proof. intros l n. revert l. induction n as [|n IH]; intros [|x l] k; cbn; try reflexivity; [destruct k; reflexivity|apply IH]. Qed.
Lemma at_app : forall (a c : bytes) k, at_ (a ++ c) k = if (k <? length a)%nat then at_ a k else at_ c (k - length a).
Proof.
  intros a c k. unfold at_. destruct (Nat.ltb_spec k (length a)); [apply app_nth1; assumption|apply app_nth2; lia].
Qed.

(** ** The wrapper's functions *)
(** Clearing the capacity never fails. *)
Lemma clear_ok : forall n, exists b, foldM (fun m i => write m i 0) (seq 0 n) (with_capacity n) = CRet b.
Proof.
  intro n. destruct (writes_ok (fun _ => 0) (fun i => i) (fun _ => 0) (seq 0 n) (with_capacity n)) as (b & E & _).
  - intros i Hi. apply in_seq in Hi. unfold with_capacity. rewrite repeat_length. split; [lia|reflexivity].
  - exists b. exact E.
Qed.
Lemma set_len_prefix : forall l b, (forall k, (k < length l)%nat -> nth_error b k = Some (Some (at_ l k))) -> set_len b (length l) = CRet l.
Proof. intros l b H. unfold set_len. apply loads_ok. exact H. Qed.
(** [open] is: too short or refused, or the message behind an accepted signature. *)
Lemma wrap_open_eq : forall b f sm pk, wrap_open b f sm pk =
  if (length sm <? 2420)%nat then CRet None else
  do ok <- verify_of b f (firstn 2420 sm) (skipn 2420 sm) pk ;; CRet (if (ok : bool) then Some (skipn 2420 sm) else None).
Proof.
  intros b f sm pk. unfold wrap_open. cbv zeta. destruct (clear_ok (length sm)) as (z & Ez). rewrite Ez. cbn [cbind].
  destruct (Nat.ltb_spec (length sm) 2420) as [Hs|Hs]; [reflexivity|].
  destruct (verify_of b f (firstn 2420 sm) (skipn 2420 sm) pk) as [[|]| |]; cbn [cbind]; try reflexivity.
  destruct (writes_ok (fun i => at_ sm (2420 + i)) (fun i => i) (fun i => at_ sm (2420 + i)) (seq 0 (length sm - 2420)) (with_capacity (length sm))) as (r & E & _ & R & _).
  - intros i Hi. apply in_seq in Hi. unfold with_capacity. rewrite repeat_length. split; [lia|reflexivity].
  - rewrite E. cbn [cbind]. rewrite <- (skipn_length 2420 sm). rewrite (set_len_prefix (skipn 2420 sm) r); [reflexivity|].
    intros k Hk. rewrite at_skipn. apply R. rewrite map_id. apply in_seq. rewrite skipn_length in Hk. lia.
Qed.
(** [sign] is the signature followed by the message. *)
Lemma wrap_sign_eq : forall b att f m sk, (forall sig, sign_of b att f m sk = CRet sig -> length sig = 2420%nat) ->
  wrap_sign b att f m sk = do sig <- sign_of b att f m sk ;; CRet (sig ++ m).
Proof.
  intros b att f m sk HL. unfold wrap_sign. cbv zeta. set (n := length m).
  destruct (writes_ok (fun j => at_ m (j - 2420)) (fun i => (2420 + n - 1 - i)%nat) (fun i => at_ m (n - 1 - i)) (seq 0 n) (with_capacity (n + 2420)))
    as (r & E & L & R & O).
  { intros i Hi. apply in_seq in Hi. unfold with_capacity. rewrite repeat_length. split; [lia|]. f_equal. lia. }
  unfold with_capacity in L. rewrite repeat_length in L. refine (eq_trans (f_equal (fun x => cbind x _) E) _). cbn [cbind].
  assert (M : forall k, (k < n)%nat -> nth_error r (2420 + k) = Some (Some (at_ m k))).
  { intros k Hk. rewrite R; [do 2 f_equal; f_equal; lia|]. apply in_map_iff. exists (n - 1 - k)%nat. split; [lia|]. apply in_seq. lia. }
  unfold n at 1. rewrite (loads_ok m r 2420 M). cbn [cbind].
  destruct (sign_of b att f m sk) as [sig| |] eqn:Es; cbn [cbind]; try reflexivity.
  specialize (HL sig eq_refl).
  destruct (writes_ok (fun i => at_ sig i) (fun i => i) (fun i => at_ sig i) (seq 0 2420) r) as (r' & E' & L' & R' & O').
  { intros i Hi. apply in_seq in Hi. split; [lia|reflexivity]. }
  refine (eq_trans (f_equal (fun x => cbind x _) E') _). cbn [cbind].
  assert (Ll : length (sig ++ m) = (2420 + n)%nat) by (rewrite app_length, HL; reflexivity).
  rewrite <- Ll. apply set_len_prefix. intros k Hk. rewrite Ll in Hk. rewrite at_app, HL. rewrite map_id in R', O'.
  destruct (Nat.ltb_spec k 2420) as [H|H].
  - apply R'. apply in_seq. lia.
  - rewrite O' by (intro X; apply in_seq in X; lia). replace k with (2420 + (k - 2420))%nat at 1 by lia. apply M. lia.
Qed.

(** ** The theorems *)
(** The premise about the matrix of the key that the AArch64 build needs (C79). *)
Definition key_fits (b : build) (rho : bytes) : Prop := match b with Aarch64 _ _ => six_blocks_suffice fips_xof rho | _ => True end.
Lemma sign_of_fits : forall b att f m sk, build_ok b -> length sk = 2560%nat -> is_bytes m -> is_bytes sk ->
  key_fits b (firstn 32 sk) -> sign_of b att (S f) m sk = sign_c att (S f) m sk.
Proof.
  intros [|e yr sig0|e h] att f m sk Hb L BM BS Six; cbn [sign_of build_ok key_fits] in *.
  - reflexivity.
  - destruct Hb as (He & Y & Ls). apply avx_sign_c; assumption.
  - destruct Hb as (He & Hh). apply a64_sign_c; assumption.
Qed.
Lemma sign_c_length : forall att f m sk sig, length sk = 2560%nat -> is_bytes m -> is_bytes sk -> sign_c att f m sk = CRet sig -> length sig = 2420%nat.
Proof. intros att f m sk sig L BM BS E. rewrite sign_fips in E by assumption. exact (proj1 (dil_signature_shape _ _ _ _ _ _ L E)). Qed.
Lemma verify_of_defined : forall b f sig m pk, build_ok b -> length pk = 1312%nat -> is_bytes pk -> is_bytes sig -> is_bytes m -> verify_of b f sig m pk <> CUB.
Proof.
  intros [|e yr sig0|e h] f sig m pk Hb L BP BS BM; cbn [verify_of build_ok] in *.
  - rewrite verify_fips by assumption. apply dil_verify_defined; assumption.
  - destruct Hb as (He & Y & _). exact (proj1 (avx_verify_c_spec e yr f sig m pk He Y L BP BS BM)).
  - destruct Hb as (He & Hh).
    refine (proj2 (a64_defined_c 0 e h f m (repeat 0 2560) sig pk He Hh (repeat_length _ _) _ L BP BS BM)).
    apply Forall_forall. intros x X. apply repeat_spec in X. subst. unfold is_byte. lia.
Qed.

(** [sign] returns whenever the C signer does: the signature, then the message; it writes every byte of
    its vector and none beyond, and the result is the same on all builds. *)
Theorem signed_message_exact : forall b att f m sk, build_ok b -> length sk = 2560%nat -> is_bytes m -> is_bytes sk ->
  key_fits b (firstn 32 sk) ->
  wrap_sign b att (S f) m sk <> CUB /\
  (forall sm, wrap_sign b att (S f) m sk = CRet sm <-> exists sig, sm = sig ++ m /\ length sig = 2420%nat /\ sign_of b att (S f) m sk = CRet sig) /\
  (forall b', build_ok b' -> key_fits b' (firstn 32 sk) -> wrap_sign b' att (S f) m sk = wrap_sign b att (S f) m sk).
Proof.
  intros b att f m sk Hb L BM BS K.
  assert (G : forall b, build_ok b -> key_fits b (firstn 32 sk) -> wrap_sign b att (S f) m sk = do sig <- sign_c att (S f) m sk ;; CRet (sig ++ m)).
  { intros c Hc Kc. rewrite wrap_sign_eq; rewrite (sign_of_fits c att f m sk Hc L BM BS Kc); [reflexivity|].
    intros sig. apply sign_c_length; assumption. }
  rewrite (G b Hb K), (sign_of_fits b att f m sk Hb L BM BS K). split; [|split].
  - assert (D : sign_c att (S f) m sk <> CUB) by (rewrite sign_fips by assumption; apply dil_sign_defined; exact L).
    destruct (sign_c att (S f) m sk); cbn [cbind]; congruence.
  - intro sm. destruct (sign_c att (S f) m sk) as [sig| |] eqn:E; cbn [cbind].
    + pose proof (sign_c_length att (S f) m sk sig L BM BS E) as Ls. split.
      * intro H. exists sig. split; [congruence|]. split; [exact Ls|reflexivity].
      * intros (s & -> & _ & H). congruence.
    + split; [discriminate|intros (s & _ & _ & H); discriminate].
    + split; [discriminate|intros (s & _ & _ & H); discriminate].
  - intros b' Hb' K'. apply G; assumption.
Qed.
Lemma bytes_split : forall n (l : bytes), is_bytes l -> is_bytes (firstn n l) /\ is_bytes (skipn n l).
Proof. intros n l B. rewrite <- (firstn_skipn n l) in B. apply Forall_app in B. exact B. Qed.
(** [open] returns a message exactly when the input is a 2420-byte signature that the build accepts for
    it, followed by it; otherwise, if the verifier returns, an error; its writes stay in the vector, and
    no byte of the result is one that was never written. *)
Theorem open_exact : forall b f sm pk, build_ok b -> length pk = 1312%nat -> is_bytes pk -> is_bytes sm ->
  wrap_open b f sm pk <> CUB /\
  (forall m, wrap_open b f sm pk = CRet (Some m) <-> exists sig, sm = sig ++ m /\ length sig = 2420%nat /\ verify_of b f sig m pk = CRet true) /\
  (wrap_open b f sm pk = CRet None <-> (length sm < 2420)%nat \/
     exists sig m, sm = sig ++ m /\ length sig = 2420%nat /\ verify_of b f sig m pk = CRet false).
Proof.
  intros b f sm pk Hb L BP BS. rewrite wrap_open_eq.
  destruct (bytes_split 2420 sm BS) as [B1 B2].
  assert (Sp : forall (s m : bytes), sm = s ++ m -> length s = 2420%nat -> firstn 2420 sm = s /\ skipn 2420 sm = m).
  { intros s m -> Ls. rewrite <- Ls. rewrite firstn_app, skipn_app, firstn_all, skipn_all, Nat.sub_diag. cbn [firstn skipn app].
    rewrite app_nil_r. auto. }
  destruct (Nat.ltb_spec (length sm) 2420) as [Hs|Hs].
  - assert (N : forall s m : bytes, sm = s ++ m -> length s = 2420%nat -> False).
    { intros s m E Ls. rewrite E, app_length in Hs. lia. }
    split; [discriminate|]. split.
    + intro m. split; [discriminate|]. intros (s & E & Ls & _). destruct (N s m E Ls).
    + split; [left; exact Hs|reflexivity].
  - pose proof (verify_of_defined b f (firstn 2420 sm) (skipn 2420 sm) pk Hb L BP B1 B2) as D.
    assert (Lf : length (firstn 2420 sm) = 2420%nat) by (rewrite firstn_length; lia).
    pose proof (firstn_skipn 2420 sm) as FS. symmetry in FS.
    destruct (verify_of b f (firstn 2420 sm) (skipn 2420 sm) pk) as [[|]| |] eqn:E; cbn [cbind].
    + split; [discriminate|]. split.
      * intro m. split.
        { intro H. exists (firstn 2420 sm). assert (m = skipn 2420 sm) as -> by congruence. auto. }
        { intros (s & Es & Ls & _). destruct (Sp s m Es Ls) as [_ ->]. reflexivity. }
      * split; [discriminate|]. intros [H|(s & m & Es & Ls & V)]; [lia|].
        destruct (Sp s m Es Ls) as [E1 E2]. rewrite E1, E2 in E. congruence.
    + split; [discriminate|]. split.
      * intro m. split; [discriminate|]. intros (s & Es & Ls & V). destruct (Sp s m Es Ls) as [E1 E2]. rewrite E1, E2 in E. congruence.
      * split; [|reflexivity]. intros _. right. exists (firstn 2420 sm), (skipn 2420 sm). auto.
    + exfalso. apply D. reflexivity.
    + split; [discriminate|]. split.
      * intro m. split; [discriminate|]. intros (s & Es & Ls & V). destruct (Sp s m Es Ls) as [E1 E2]. rewrite E1, E2 in E. congruence.
      * split; [discriminate|]. intros [H|(s & m & Es & Ls & V)]; [lia|].
        destruct (Sp s m Es Ls) as [E1 E2]. rewrite E1, E2 in E. congruence.
Qed.
(** What any build signs with the private key of a generated pair, any build opens under the public one,
    to the same message. *)
Theorem signed_messages_move : forall b2 b3 att f f' seed pk sk m sm, build_ok b2 -> build_ok b3 -> is_bytes seed -> is_bytes m ->
  keypair_c (S f) seed = CRet (pk, sk) -> key_fits b2 (firstn 32 pk) -> key_fits b3 (firstn 32 pk) ->
  wrap_sign b2 att (S f') m sk = CRet sm ->
  length sm = (2420 + length m)%nat /\ wrap_open b3 (S f') sm pk = CRet (Some m).
Proof.
  intros b2 b3 att f f' seed pk sk m sm H2 H3 B BM HK K2 K3 E.
  destruct (keypair_c_facts _ _ _ _ B HK) as (BP & BS & LP & LS & R).
  assert (K2' : key_fits b2 (firstn 32 sk)) by (rewrite R; exact K2).
  destruct (signed_message_exact b2 att f' m sk H2 LS BM BS K2') as (_ & X & _).
  apply (proj1 (X sm)) in E. destruct E as (sig & -> & Ls & E).
  rewrite (sign_of_fits b2 att f' m sk H2 LS BM BS K2') in E.
  split; [rewrite app_length, Ls; reflexivity|].
  assert (Bs : is_bytes sig) by (rewrite sign_fips in E by assumption; exact (sign_bytes _ _ _ _ _ _ LS E)).
  assert (Bsm : is_bytes (sig ++ m)) by (apply Forall_app; auto).
  destruct (open_exact b3 (S f') (sig ++ m) pk H3 LP BP Bsm) as (_ & O & _). apply O. exists sig. split; [reflexivity|]. split; [exact Ls|].
  destruct b3 as [|e yr sig0|e h]; cbn [verify_of build_ok key_fits] in *.
  - exact (dilithium2_complete (S f) att (S f') (S f') seed pk sk m sig B BM HK E (le_n _)).
  - destruct H3 as (He & Y & _). exact (avx_complete_c e yr (S f) att (S f') (S f') seed pk sk m sig He Y B BM HK E (le_n _)).
  - destruct H3 as (He & Hh).
    exact (proj1 (a64_interop_c e h some_ctx some_yr att (S f) f' seed pk sk m sig He Hh some_ctx_ok some_yr_ok B BM HK K3 (or_intror E))).
Qed.
(** One signature opens, under whatever keys and on whatever builds, to one message and under one key,
    up to named collisions of SHAKE256. *)
Theorem opened_names_one : forall b b' f f' sm sm' m m' pk pk', build_ok b -> build_ok b' ->
  length pk = 1312%nat -> is_bytes pk -> length pk' = 1312%nat -> is_bytes pk' -> is_bytes sm -> is_bytes sm' ->
  wrap_open b f sm pk = CRet (Some m) -> wrap_open b' f' sm' pk' = CRet (Some m') ->
  firstn 2420 sm = firstn 2420 sm' -> (pk, m) <> (pk', m') ->
  exists tr tr' mu mu' w w',
    KeccakSpec.bits_of_bytes tr = KeccakSpec.SHAKE256 (KeccakSpec.bits_of_bytes pk) 512 /\ KeccakSpec.bits_of_bytes tr' = KeccakSpec.SHAKE256 (KeccakSpec.bits_of_bytes pk') 512 /\
    KeccakSpec.bits_of_bytes mu = KeccakSpec.SHAKE256 (KeccakSpec.bits_of_bytes (tr ++ m)) 512 /\ KeccakSpec.bits_of_bytes mu' = KeccakSpec.SHAKE256 (KeccakSpec.bits_of_bytes (tr' ++ m')) 512 /\
    (shake_collision 512 pk pk' \/ shake_collision 512 (tr ++ m) (tr' ++ m') \/ shake_collision 256 (mu ++ w) (mu' ++ w')).
Proof.
  intros b b' f f' sm sm' m m' pk pk' Hb Hb' L BP L' BP' BS BS' O O' E N.
  destruct (open_exact b f sm pk Hb L BP BS) as (_ & X & _). apply (proj1 (X m)) in O. destruct O as (sig & -> & Ls & V).
  destruct (open_exact b' f' sm' pk' Hb' L' BP' BS') as (_ & X' & _). apply (proj1 (X' m')) in O'. destruct O' as (sig' & -> & Ls' & V').
  assert (F : forall (s t : bytes), length s = 2420%nat -> firstn 2420 (s ++ t) = s).
  { intros s t Lt. rewrite <- Lt. rewrite firstn_app, firstn_all, Nat.sub_diag. cbn [firstn]. apply app_nil_r. }
  rewrite F, F in E by assumption. subst sig'. apply Forall_app in BS as [B1 B2]. apply Forall_app in BS' as [_ B2'].
  exact (exclusive_ownership b b' f f' sig m m' pk pk' Hb Hb' L BP L' BP' B1 B2 B2' V V' N).
Qed.

(** ** Output and input in one buffer *)
Lemma moves_ok : forall (src dst : nat -> nat) n (c : nat -> Z) b,
  (forall i, (i < n)%nat -> (dst i < length b)%nat /\ nth_error b (src i) = Some (Some (c i))) ->
  (forall i j, (i < j < n)%nat -> dst i <> src j /\ dst i <> dst j) ->
  exists b', foldM (fun b i => do v <- load b (src i) ;; write b (dst i) v) (seq 0 n) b = CRet b' /\ length b' = length b /\
    forall i, (i < n)%nat -> nth_error b' (dst i) = Some (Some (c i)).
Proof.
  intros src dst n c b H I.
  enough (G : forall k o b0, (o + k = n)%nat -> length b0 = length b ->
    (forall i, (o <= i < n)%nat -> nth_error b0 (src i) = Some (Some (c i))) -> (forall i, (i < o)%nat -> nth_error b0 (dst i) = Some (Some (c i))) ->
    exists b', foldM (fun b i => do v <- load b (src i) ;; write b (dst i) v) (seq o k) b0 = CRet b' /\ length b' = length b /\
      forall i, (i < n)%nat -> nth_error b' (dst i) = Some (Some (c i))).
  { apply (G n 0%nat b); [reflexivity|reflexivity| |intros; lia]. intros i Hi. apply H. lia. }
  induction k as [|k IH]; intros o b0 E L S D.
  - exists b0. cbn. split; [reflexivity|]. split; [exact L|]. intros i Hi. apply D. lia.
  - cbn [seq foldM]. unfold load at 1. rewrite (S o) by lia. cbn [cbind].
    destruct (write_ok b0 (dst o) (c o)) as (b1 & E1 & L1 & S1 & O1). { rewrite L. apply H. lia. }
    rewrite E1. cbn [cbind]. apply IH; [lia|congruence| |].
    + intros i Hi. rewrite O1; [apply S; lia|]. destruct (I o i); [lia|]. congruence.
    + intros i Hi. destruct (Nat.eq_dec i o) as [->|N]; [exact S1|]. rewrite O1; [apply D; lia|].
      destruct (I i o); [lia|]. congruence.
Qed.
(** Signing in place: the message at the start of the buffer arrives behind the place of the signature;
    opening in place: the message behind the signature arrives at the start.  Nothing is lost although
    the two places overlap. *)
Theorem sign_in_place : forall m tail, length tail = 2420%nat ->
  exists sm, move_up (length m) (map Some m ++ tail) = CRet sm /\ length sm = (2420 + length m)%nat /\ loads sm 2420 (length m) = CRet m.
Proof.
  intros m tail Lt. unfold move_up.
  destruct (moves_ok (fun i => (length m - 1 - i)%nat) (fun i => (2420 + length m - 1 - i)%nat) (length m) (fun i => at_ m (length m - 1 - i)) (map Some m ++ tail))
    as (b & E & L & R).
  - intros i Hi. rewrite app_length, map_length, Lt. split; [lia|]. rewrite nth_error_app1 by (rewrite map_length; lia).
    rewrite nth_error_map, (nth_error_nth' m 0) by lia. reflexivity.
  - intros i j H. lia.
  - exists b. split; [exact E|]. split; [rewrite L, app_length, map_length, Lt; lia|]. apply loads_ok. intros k Hk.
    specialize (R (length m - 1 - k)%nat ltac:(lia)). replace (2420 + length m - 1 - (length m - 1 - k))%nat with (2420 + k)%nat in R by lia.
    rewrite R. do 3 f_equal. lia.
Qed.
Theorem open_in_place : forall sig m, length sig = 2420%nat ->
  exists sm, move_down (length m) (map Some (sig ++ m)) = CRet sm /\ length sm = (2420 + length m)%nat /\ set_len sm (length m) = CRet m.
Proof.
  intros sig m Ls. unfold move_down.
  destruct (moves_ok (fun i => (2420 + i)%nat) (fun i => i) (length m) (fun i => at_ m i) (map Some (sig ++ m))) as (b & E & L & R).
  - intros i Hi. rewrite map_length, app_length, Ls. split; [lia|].
    rewrite nth_error_map, (nth_error_nth' (sig ++ m) 0) by (rewrite app_length, Ls; lia). rewrite app_nth2 by lia.
    rewrite Ls. replace (2420 + i - 2420)%nat with i by lia. reflexivity.
  - intros i j H. lia.
  - exists b. split; [exact E|]. split; [rewrite L, map_length, app_length, Ls; reflexivity|]. apply set_len_prefix. exact R.
Qed.

(** ** Detached signatures *)
(** dilithium2.rs 309-341 ([detached_sign]): the C code overwrites the array and stores its length. *)
Definition wrap_detached_sign (b : build) (att fuel : nat) (m sk : bytes) : crun (bytes * nat) :=
  do sig <- sign_of b att fuel m sk ;; CRet (sig, 2420%nat).
(** dilithium2.rs 343-386 ([verify_detached_signature]): the array and the stored length go to the C code. *)
Definition wrap_verify (b : build) (fuel : nat) (s : bytes * nat) (m pk : bytes) : crun bool :=
  verify_of b fuel (sig_as_bytes s) m pk.
Lemma verify_of_length : forall b f sig m pk, length sig <> 2420%nat -> verify_of b f sig m pk = CRet false.
Proof.
  intros b f sig m pk N. apply Nat.eqb_neq in N. destruct b as [|e yr sig0|e h]; cbn [verify_of].
  - with_strategy transparent [verify_c] (unfold verify_c). rewrite N. reflexivity.
  - with_strategy transparent [verify_signature_avx_c] (unfold verify_signature_avx_c). rewrite N. reflexivity.
  - with_strategy transparent [verify_signature64_c] (unfold verify_signature64_c). rewrite N. reflexivity.
Qed.
(** On every build: verifying what was parsed from bytes [x] is verifying [x], which is rejected unless it
    has 2420 bytes; and verification is never undefined. *)
Theorem detached_exact : forall b f x s m pk, build_ok b -> length pk = 1312%nat -> is_bytes pk -> is_bytes x -> is_bytes m ->
  sig_from_bytes x = Some s ->
  wrap_verify b f s m pk <> CUB /\
  (wrap_verify b f s m pk = CRet true <-> length x = 2420%nat /\ verify_of b f x m pk = CRet true) /\
  (length x <> 2420%nat -> wrap_verify b f s m pk = CRet false).
Proof.
  intros b f x s m pk Hb L BP BX BM E. unfold wrap_verify. destruct (dil_detached_roundtrip x s E) as [-> _].
  split; [apply verify_of_defined; assumption|]. split; [|intro N; apply verify_of_length; exact N].
  split; [|intros [_ H]; exact H]. intro H. split; [|exact H].
  destruct (Nat.eq_dec (length x) 2420) as [Y|N]; [exact Y|]. rewrite (verify_of_length b f x m pk N) in H. discriminate.
Qed.
(** A detached signature made by any build survives its encoding and verifies on any build. *)
Theorem detached_signatures_move : forall b2 b3 att f f' seed pk sk m s, build_ok b2 -> build_ok b3 -> is_bytes seed -> is_bytes m ->
  keypair_c (S f) seed = CRet (pk, sk) -> key_fits b2 (firstn 32 pk) -> key_fits b3 (firstn 32 pk) ->
  wrap_detached_sign b2 att (S f') m sk = CRet s ->
  length (sig_as_bytes s) = 2420%nat /\ sig_from_bytes (sig_as_bytes s) = Some s /\ wrap_verify b3 (S f') s m pk = CRet true.
Proof.
  intros b2 b3 att f f' seed pk sk m s H2 H3 B BM HK K2 K3 E.
  destruct (keypair_c_facts _ _ _ _ B HK) as (BP & BS & LP & LS & R).
  assert (K2' : key_fits b2 (firstn 32 sk)) by (rewrite R; exact K2).
  unfold wrap_detached_sign in E. destruct (sign_of b2 att (S f') m sk) as [sig| |] eqn:Es; cbn [cbind] in E; try discriminate.
  assert (s = (sig, 2420%nat)) as -> by congruence. clear E.
  pose proof Es as Ec. rewrite (sign_of_fits b2 att f' m sk H2 LS BM BS K2') in Ec.
  pose proof (sign_c_length _ _ _ _ _ LS BM BS Ec) as Ls.
  assert (Bs : is_bytes sig) by (rewrite sign_fips in Ec by assumption; exact (sign_bytes _ _ _ _ _ _ LS Ec)).
  assert (A : sig_as_bytes (sig, 2420%nat) = sig) by (unfold sig_as_bytes; cbn [fst snd]; apply firstn_all2; rewrite Ls; apply le_n).
  rewrite A. split; [exact Ls|]. split.
  - unfold sig_from_bytes. rewrite Ls, Nat.ltb_irrefl, Nat.sub_diag. cbn [repeat]. rewrite app_nil_r. reflexivity.
  - unfold wrap_verify. rewrite A.
    assert (W : wrap_sign b2 att (S f') m sk = CRet (sig ++ m)).
    { destruct (signed_message_exact b2 att f' m sk H2 LS BM BS K2') as (_ & X & _). apply X. exists sig. auto. }
    destruct (signed_messages_move b2 b3 att f f' seed pk sk m (sig ++ m) H2 H3 B BM HK K2 K3 W) as [_ O].
    assert (Bsm : is_bytes (sig ++ m)) by (apply Forall_app; auto).
    destruct (open_exact b3 (S f') (sig ++ m) pk H3 LP BP Bsm) as (_ & X & _). apply (proj1 (X m)) in O.
    destruct O as (sig' & E & Ls' & V). apply app_eq_len in E; [|congruence]. destruct E as [<- _]. exact V.
Qed.

(** ** The premises are met *)
(** A length beyond what was written is undefined. *)
Example unwritten_is_undefined : set_len [Some 1; None; Some 3] 2 = CUB /\ set_len [Some 1; Some 2] 3 = CUB.
Proof. split; reflexivity. Qed.
Example key_fits_met : forall rho, key_fits Portable rho /\ key_fits (Avx2 some_ctx some_yr (repeat 0 2420)) rho.
Proof. intro rho. split; exact I. Qed.
