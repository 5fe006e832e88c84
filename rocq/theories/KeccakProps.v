(** * KeccakProps: SHA-3 and SHAKE as implemented are those of FIPS 202, for every input and every
    way of splitting it (C60). *)
From Coq Require Import ZArith List Lia Bool.
From Verif Require Import Base Bits Keccak KeccakSpec KeccakPerm KeccakSponge.
Import ListNotations.
Open Scope Z_scope.
Local Opaque StatePermute keccak_f.

(** ** The specification's absorb phase *)
Lemma nth_firstn_lt : forall A (l : list A) n i d, (i < n)%nat -> nth i (firstn n l) d = nth i l d.
Proof.
  intros A l n. revert l. induction n as [|n IH]; intros l i d H; [lia|]. destruct l as [|x l]; [destruct i; reflexivity|].
  destruct i as [|i]; [reflexivity|]. cbn [firstn nth]. apply IH. lia.
Qed.
Lemma xor_bits_length : forall a b, List.length a = List.length b -> List.length (xor_bits a b) = List.length a.
Proof. intros a b L. unfold xor_bits. rewrite map_length, combine_length, L. apply Nat.min_id. Qed.
Lemma xor_bits_nth : forall a b i, List.length a = List.length b -> nth i (xor_bits a b) false = xorb (nth i a false) (nth i b false).
Proof.
  intros a b i L. unfold xor_bits. change false with ((fun p : bool * bool => xorb (fst p) (snd p)) (false, false)) at 1.
  rewrite map_nth, combine_nth by exact L. reflexivity.
Qed.
Lemma block_length : forall (l : list bool) a N, (a <= List.length l)%nat -> (a <= N)%nat ->
  List.length (firstn a l ++ repeat false (N - a)) = N.
Proof. intros l a N H1 H2. rewrite app_length, firstn_length_le, repeat_length by exact H1. lia. Qed.
Lemma xor_bits_ok : forall s m r, wf s -> is_bytes m -> (r <= List.length m)%nat -> (r <= 200)%nat ->
  xor_bits (sbits s) (firstn (8 * r) (bits_of_bytes m) ++ repeat false (1600 - 8 * r)) = sbits (xor_at s 0 m r).
Proof.
  intros s m r W B L R.
  assert (BL : List.length (firstn (8 * r) (bits_of_bytes m) ++ repeat false (1600 - 8 * r)) = 1600%nat)
    by (apply block_length; [rewrite bits_length; lia|lia]).
  assert (SL : List.length (sbits s) = List.length (firstn (8 * r) (bits_of_bytes m) ++ repeat false (1600 - 8 * r))) by (rewrite BL; apply sbits_length).
  apply (nth_ext _ _ false false); [rewrite xor_bits_length by exact SL; rewrite !sbits_length; reflexivity|].
  intros i I. rewrite xor_bits_length, sbits_length in I by exact SL.
  rewrite xor_bits_nth by exact SL. rewrite !nth_sbits by exact I. rewrite xor_at_bit by (assumption || lia). f_equal.
  cbn [Nat.leb andb]. rewrite Nat.sub_0_r, Nat.add_0_l. pose proof (div_mod_8 i) as D. pose proof (mod_8 i) as M.
  assert (FL : List.length (firstn (8 * r) (bits_of_bytes m)) = (8 * r)%nat) by (apply firstn_length_le; rewrite bits_length; lia).
  destruct (Nat.ltb_spec (i / 8) r) as [T|T]; cbn [andb].
  - rewrite app_nth1 by (rewrite FL; lia). rewrite nth_firstn_lt by lia. apply nth_bits.
  - rewrite app_nth2 by (rewrite FL; lia). destruct (nth_in_or_default (i - List.length (firstn (8 * r) (bits_of_bytes m))) (repeat false (1600 - 8 * r)) false) as [X|X]; [|exact X].
    apply repeat_spec in X. exact X.
Qed.
Lemma skipn_bits : forall m n, skipn (8 * n) (bits_of_bytes m) = bits_of_bytes (skipn n m).
Proof.
  intros m. induction m as [|b m IH]; intro n; [rewrite !skipn_nil; reflexivity|].
  destruct n as [|n]; [reflexivity|]. replace (8 * S n)%nat with (8 + 8 * n)%nat by lia. cbn [skipn]. rewrite <- IH.
  change (bits_of_bytes (b :: m)) with (bits_of_byte b ++ bits_of_bytes m). rewrite skipn_app, skipn_all2 by (rewrite bits_of_byte_length; lia).
  rewrite bits_of_byte_length. replace (8 + 8 * n - 8)%nat with (8 * n)%nat by lia. reflexivity.
Qed.
Lemma sponge_absorb_S : forall r n P S, sponge_absorb r (Datatypes.S n) P S =
  sponge_absorb r n (skipn r P) (keccak_f (xor_bits S (firstn r P ++ repeat false (1600 - r)))).
Proof. reflexivity. Qed.
Lemma absorb_ok : forall r, (0 < r <= 200)%nat -> forall s m, wf s -> is_bytes m -> forall pad, is_bytes pad ->
  (List.length m mod r + List.length pad = r)%nat -> forall s' rest, ab r s m = (s', rest) ->
  sponge_absorb (8 * r) (List.length m / r + 1) (bits_of_bytes (m ++ pad)) (sbits s) = sbits (StatePermute (xor_at s' 0 (rest ++ pad) r)).
Proof.
  intros r R s m. pattern s, m. apply (ab_ind r ltac:(lia)); clear s m.
  - intros s m L W B pad PB PL s' rest E. rewrite ab_lt in E by exact L. injection E as <- <-.
    rewrite Nat.mod_small in PL by exact L. rewrite Nat.div_small by exact L. rewrite Nat.add_0_l.
    rewrite sponge_absorb_S. cbn [sponge_absorb]. rewrite xor_bits_ok.
    + symmetry. apply permute_is_keccak_f, xor_at_wf, W.
    + exact W. + apply Forall_app; split; assumption. + rewrite app_length. lia. + lia.
  - intros s m L IH W B pad PB PL s' rest E. rewrite ab_ge in E by (lia || assumption).
    assert (Q : (List.length m / r = S (List.length (skipn r m) / r))%nat).
    { rewrite skipn_length. replace (List.length m) with (List.length m - r + 1 * r)%nat at 1 by lia. rewrite Nat.div_add by lia. lia. }
    assert (MD : (List.length (skipn r m) mod r = List.length m mod r)%nat).
    { rewrite skipn_length. replace (List.length m) with (List.length m - r + 1 * r)%nat at 2 by lia. rewrite Nat.mod_add by lia. reflexivity. }
    rewrite Q. replace (S (List.length (skipn r m) / r) + 1)%nat with (S (List.length (skipn r m) / r + 1)) by lia.
    rewrite sponge_absorb_S, skipn_bits. rewrite xor_bits_ok; [|exact W|apply Forall_app; split; assumption|rewrite app_length; lia|lia].
    destruct (permute_is_keccak_f (xor_at s 0 (m ++ pad) r) (xor_at_wf _ _ _ _ W)) as [PW PE]. rewrite <- PE.
    rewrite skipn_app. replace (r - List.length m)%nat with 0%nat by lia. cbn [skipn].
    replace (xor_at s 0 (m ++ pad) r) with (xor_at s 0 m r).
    + apply IH; [apply permute_wf, xor_at_wf, W|apply is_bytes_skipn, B|exact PB|rewrite MD; exact PL|exact E].
    + apply xor_at_firstn. rewrite firstn_app. replace (r - List.length m)%nat with 0%nat by lia. rewrite firstn_O, app_nil_r. reflexivity.
Qed.

(** ** Padding *)
Definition padbytes (r : nat) (p : Z) (n : nat) : bytes :=
  if (n =? r - 1)%nat then [Z.lor p 128] else [p] ++ repeat 0 (r - n - 2) ++ [128].
Lemma padbytes_length : forall r p n, (n < r)%nat -> (n + List.length (padbytes r p n) = r)%nat.
Proof.
  intros r p n N. unfold padbytes. destruct (Nat.eqb_spec n (r - 1)); [cbn; lia|]. rewrite !app_length, repeat_length. cbn [List.length]. lia.
Qed.
Lemma padbytes_bytes : forall r p n, is_byte p -> is_bytes (padbytes r p n).
Proof.
  intros r p n P. unfold padbytes. destruct (n =? r - 1)%nat; [constructor; [apply lor128_byte, P|constructor]|].
  constructor; [exact P|]. apply Forall_app. split; [apply Forall_forall; intros x X; apply repeat_spec in X; subst x|constructor; [|constructor]]; unfold is_byte; lia.
Qed.
Lemma nth_repeat0 : forall n j, nth j (repeat 0 n) 0 = 0.
Proof. intros n j. destruct (nth_in_or_default j (repeat 0 n) 0) as [X|X]; [apply repeat_spec in X|]; exact X. Qed.
Lemma padblock_app : forall r p rest, (List.length rest < r)%nat -> padblock r p rest = rest ++ padbytes r p (List.length rest).
Proof.
  intros r p rest L. assert (PL : List.length (padblock r p rest) = r) by (unfold padblock; rewrite !upd_length; apply t0_length, L).
  pose proof (padbytes_length r p (List.length rest) L) as BL.
  apply (nth_ext _ _ 0 0); [rewrite PL, app_length; lia|]. intros j J. rewrite PL in J. rewrite padblock_nth by assumption. cbv zeta.
  destruct (Nat.ltb_spec j (List.length rest)) as [T|T].
  - rewrite app_nth1 by exact T. replace (j =? r - 1)%nat with false by (symmetry; apply Nat.eqb_neq; lia). reflexivity.
  - rewrite app_nth2 by exact T. unfold padbytes. destruct (Nat.eqb_spec (List.length rest) (r - 1)) as [E|E].
    + replace j with (List.length rest) by lia. rewrite Nat.eqb_refl, E, Nat.eqb_refl, Nat.sub_diag. reflexivity.
    + destruct (Nat.eqb_spec j (List.length rest)) as [-> |E'].
      * replace (List.length rest =? r - 1)%nat with false by (symmetry; apply Nat.eqb_neq; exact E). rewrite Nat.sub_diag. reflexivity.
      * replace (j - List.length rest)%nat with (S (j - List.length rest - 1)) by lia. cbn [app nth].
        destruct (Nat.eqb_spec j (r - 1)) as [->|E2].
        -- rewrite app_nth2 by (rewrite repeat_length; lia). rewrite repeat_length. replace (r - 1 - List.length rest - 1 - (r - List.length rest - 2))%nat with 0%nat by lia. reflexivity.
        -- rewrite app_nth1 by (rewrite repeat_length; lia). symmetry. apply nth_repeat0.
Qed.
(** The domain byte p stands for the bits sfx that are appended to the message, followed by the
    first bit of the padding. *)
Definition domain (p : Z) (sfx : list bool) : Prop :=
  0 <= p < 128 /\ (List.length sfx <= 6)%nat /\
  bits_of_byte p = sfx ++ [true] ++ repeat false (7 - List.length sfx) /\
  bits_of_byte (Z.lor p 128) = sfx ++ [true] ++ repeat false (6 - List.length sfx) ++ [true].
Lemma shake_domain : domain 31 [true; true; true; true].
Proof. split; [lia|]. split; [cbn; lia|]. split; reflexivity. Qed.
Lemma sha3_domain : domain 6 [false; true].
Proof. split; [lia|]. split; [cbn; lia|]. split; reflexivity. Qed.
Lemma bits_zeros : forall n, bits_of_bytes (repeat 0 n) = repeat false (8 * n).
Proof.
  intro n. induction n as [|n IH]; [reflexivity|]. replace (8 * S n)%nat with (8 + 8 * n)%nat by lia. rewrite repeat_app, <- IH. reflexivity.
Qed.
Lemma pad_count : forall r n k sl, (0 < r)%nat -> (n < r)%nat -> (sl <= 6)%nat ->
  ((8 * r - (8 * (r * k + n) + sl + 2) mod (8 * r)) mod (8 * r) = 8 * (r - n) - sl - 2)%nat.
Proof.
  intros r n k sl R N S. replace (8 * (r * k + n) + sl + 2)%nat with (8 * n + sl + 2 + k * (8 * r))%nat by lia.
  rewrite Nat.mod_add by lia. destruct (Nat.lt_ge_cases (8 * n + sl + 2) (8 * r)) as [T|T].
  - rewrite (Nat.mod_small (8 * n + sl + 2)) by exact T. rewrite Nat.mod_small by lia. lia.
  - replace (8 * n + sl + 2)%nat with (0 + 1 * (8 * r))%nat by lia. rewrite Nat.mod_add, Nat.mod_0_l, Nat.sub_0_r, Nat.mod_same by lia. lia.
Qed.
Lemma pad_bits : forall r p sfx L, (0 < r)%nat -> domain p sfx ->
  sfx ++ pad10_1 (8 * r) (8 * L + List.length sfx) = bits_of_bytes (padbytes r p (L mod r)).
Proof.
  intros r p sfx L R (P & SL & B1 & B2). unfold pad10_1. set (n := (L mod r)%nat).
  assert (N : (n < r)%nat) by (apply Nat.mod_upper_bound; lia).
  pose proof (Nat.div_mod L r ltac:(lia)) as D. fold n in D. rewrite D at 1. rewrite pad_count by assumption.
  unfold padbytes. destruct (Nat.eqb_spec n (r - 1)) as [E|E].
  - unfold bits_of_bytes. cbn [flat_map]. rewrite app_nil_r, B2. replace (8 * (r - n) - List.length sfx - 2)%nat with (6 - List.length sfx)%nat by lia. reflexivity.
  - rewrite !bits_app, bits_zeros. unfold bits_of_bytes. cbn [flat_map]. rewrite !app_nil_r, B1.
    replace (8 * (r - n) - List.length sfx - 2)%nat with ((7 - List.length sfx) + (8 * (r - n - 2) + 7))%nat by lia.
    rewrite !repeat_app. change (bits_of_byte 128) with (repeat false 7 ++ [true]). rewrite <- !app_assoc. reflexivity.
Qed.
(** The state of the specification after absorbing. *)
Lemma spec_absorb : forall r p sfx M, rate r -> domain p sfx -> is_bytes M ->
  let P := bits_of_bytes M ++ sfx ++ pad10_1 (8 * r) (List.length (bits_of_bytes M ++ sfx)) in
  sponge_absorb (8 * r) (List.length P / (8 * r)) P (repeat false 1600) = sbits (StatePermute (padstate r p M)).
Proof.
  intros r p sfx M R DM B P. pose proof (rate_bounds r R) as RB. unfold padstate.
  destruct (ab r zero_state M) as [s rest] eqn:E. destruct (ab_ok r ltac:(lia) _ _ zero_wf B _ _ E) as (A1 & A2 & A3 & A4).
  assert (PB : is_byte p) by (destruct DM as [? _]; unfold is_byte; lia).
  assert (EP : P = bits_of_bytes (M ++ padbytes r p (List.length M mod r))).
  { unfold P. rewrite app_length, bits_length, (pad_bits r p) by (lia || assumption). symmetry. apply bits_app. }
  pose proof (padbytes_length r p (List.length M mod r) (Nat.mod_upper_bound _ r ltac:(lia))) as PL.
  assert (LP : (List.length P / (8 * r) = List.length M / r + 1)%nat).
  { rewrite EP, bits_length, app_length. rewrite Nat.div_mul_cancel_l by lia.
    pose proof (Nat.div_mod (List.length M) r ltac:(lia)) as D.
    replace (List.length M + List.length (padbytes r p (List.length M mod r)))%nat with (0 + (List.length M / r + 1) * r)%nat by lia.
    rewrite Nat.div_add by lia. rewrite Nat.div_0_l by lia. reflexivity. }
  rewrite LP, EP. replace (repeat false 1600) with (sbits zero_state).
  - rewrite (absorb_ok r ltac:(lia) zero_state M zero_wf B (padbytes r p (List.length M mod r)) (padbytes_bytes _ _ _ PB) PL _ _ E).
    rewrite padblock_app by exact A3. rewrite A4. reflexivity.
  - apply (nth_ext _ _ false false); [rewrite sbits_length, repeat_length; reflexivity|]. intros i I. rewrite sbits_length in I.
    rewrite nth_sbits by exact I. unfold sbit, zero_state. rewrite nth_repeat0, Z.testbit_0_l.
    destruct (nth_in_or_default i (repeat false 1600) false) as [X|X]; [apply repeat_spec in X|]; symmetry; exact X.
Qed.

(** ** Squeezing *)
(** Byte j of the stream squeezed from the padded state F. *)
Definition obyte (r : nat) (F : list Z) (j : nat) : Z := state_byte (Nat.iter (j / r + 1) StatePermute F) (j mod r).
Lemma Nat_iter_S : forall A (f : A -> A) n x, Nat.iter (S n) f x = f (Nat.iter n f x).
Proof. reflexivity. Qed.
Lemma padstate_wf : forall r p M, (0 < r)%nat -> is_bytes M -> wf (padstate r p M).
Proof.
  intros r p M R B. unfold padstate. destruct (ab r zero_state M) as [s rest] eqn:E.
  destruct (ab_ok r R _ _ zero_wf B _ _ E) as (A1 & _). apply xor_at_wf, A1.
Qed.
Lemma iter_wf : forall n s, wf s -> wf (Nat.iter n StatePermute s).
Proof. intros n s W. induction n as [|n IH]; [exact W|]. rewrite Nat_iter_S. apply permute_wf, IH. Qed.
Lemma iter_shift : forall A (f : A -> A) n x, Nat.iter n f (f x) = f (Nat.iter n f x).
Proof. intros A f n x. induction n as [|n IH]; [reflexivity|]. rewrite !Nat_iter_S, IH. reflexivity. Qed.
Lemma state_byte_bit : forall s pos k, (k < 8)%nat -> Z.testbit (state_byte s pos) (Z.of_nat k) = sbit s (8 * pos + k).
Proof.
  intros s pos k K. unfold state_byte, sbit. rewrite testbit_u8 by lia. replace (Z.of_nat k <? 8) with true by (symmetry; apply Z.ltb_lt; lia).
  cbn [andb]. rewrite Z.shiftr_spec by lia. destruct (bit_index (8 * pos + k)) as [E1 E2].
  assert (D : ((8 * pos + k) / 8 = pos)%nat) by (rewrite (Nat.mul_comm 8), Nat.div_add_l, (Nat.div_small k) by lia; lia).
  assert (M : ((8 * pos + k) mod 8 = k)%nat) by (rewrite (Nat.add_comm (8 * pos)), (Nat.mul_comm 8), Nat.mod_add, Nat.mod_small by lia; reflexivity).
  rewrite E1, E2, D, M. f_equal. lia.
Qed.
Lemma seq_shift_map : forall A (f : nat -> A) a n, map f (seq a n) = map (fun i => f (a + i)%nat) (seq 0 n).
Proof.
  intros A f a n. revert a. induction n as [|n IH]; intro a; [reflexivity|]. cbn [seq map]. rewrite Nat.add_0_r. f_equal.
  rewrite (IH (S a)), <- seq_shift, map_map. apply map_ext. intro i. f_equal. lia.
Qed.
Lemma store64_eq : forall s l, store64 (nth l s 0) = map (state_byte s) (seq (8 * l) 8).
Proof.
  intros s l. unfold store64.
  assert (G : forall j, (j < 8)%nat -> ((8 * l + j) / 8 = l /\ (8 * l + j) mod 8 = j)%nat).
  { intros j J. rewrite (Nat.mul_comm 8), Nat.div_add_l, (Nat.div_small j), (Nat.add_comm (l * 8)), Nat.mod_add, Nat.mod_small by lia. lia. }
  rewrite (seq_shift_map _ (state_byte s)). apply map_ext_in. intros j J. apply in_seq in J. destruct (G j ltac:(lia)) as [G1 G2]. unfold state_byte. rewrite G1, G2. reflexivity.
Qed.
Lemma store_lanes : forall q s, (q <= List.length s)%nat -> flat_map store64 (firstn q s) = map (state_byte s) (seq 0 (8 * q)).
Proof.
  intros q s L. induction q as [|q IH]; [reflexivity|].
  assert (E : firstn (S q) s = firstn q s ++ [nth q s 0]).
  { clear IH. revert s L. induction q as [|q IH]; intros s L; (destruct s as [|x s]; [cbn in L; lia|]); [reflexivity|].
    cbn [firstn nth app]. f_equal. apply IH. cbn in L. lia. }
  rewrite E, flat_map_app, IH by lia. cbn [flat_map]. rewrite app_nil_r, store64_eq.
  replace (8 * S q)%nat with (8 * q + 8)%nat by lia. rewrite seq_app, map_app. reflexivity.
Qed.
(** A block of output. *)
Lemma block_bytes : forall r F k, (0 < r)%nat ->
  map (state_byte (Nat.iter (k + 1) StatePermute F)) (seq 0 r) = map (obyte r F) (seq (k * r) r).
Proof.
  intros r F k R. rewrite (seq_shift_map _ (obyte r F)). apply map_ext_in. intros i I. apply in_seq in I. unfold obyte.
  rewrite Nat.div_add_l, (Nat.div_small i), Nat.add_0_r, (Nat.add_comm (k * r)), Nat.mod_add, Nat.mod_small by lia. reflexivity.
Qed.
Lemma squeezeblocks_eq : forall r F k n, rate r -> wf F ->
  keccak_squeezeblocks n r (Nat.iter k StatePermute F) = (map (obyte r F) (seq (k * r) (n * r)), Nat.iter (k + n) StatePermute F).
Proof.
  intros r F k n R W. pose proof (rate_bounds r R) as RB. revert k. induction n as [|n IH]; intro k.
  - cbn [keccak_squeezeblocks Nat.mul seq map]. rewrite Nat.add_0_r. reflexivity.
  - cbn [keccak_squeezeblocks]. assert (ES : StatePermute (Nat.iter k StatePermute F) = Nat.iter (k + 1) StatePermute F) by (rewrite Nat.add_1_r, Nat_iter_S; reflexivity).
    rewrite ES, IH. f_equal; [|f_equal; lia].
    destruct R as (q & Q & Q1). subst r. rewrite (Nat.mul_comm 8 q) at 1. rewrite Nat.div_mul by discriminate.
    rewrite store_lanes by (destruct (iter_wf (k + 1) F W) as [WL _]; rewrite WL; lia).
    rewrite block_bytes by lia. replace (S n * (8 * q))%nat with (8 * q + n * (8 * q))%nat by lia. rewrite seq_app, map_app. do 3 f_equal. lia.
Qed.
(** The incremental context after p bytes have been squeezed. *)
Definition cdiv (p r : nat) : nat := (p + r - 1) / r.
Definition sq_at (r : nat) (F : list Z) (p : nat) : incctx := (Nat.iter (cdiv p r) StatePermute F, (cdiv p r * r - p)%nat).
Lemma cdiv_unique : forall p r c, (0 < r)%nat -> (p <= c * r)%nat -> (c * r < p + r)%nat -> cdiv p r = c.
Proof.
  intros p r c R L U. unfold cdiv. symmetry. apply (Nat.div_unique _ _ _ (p + r - 1 - r * c)); lia.
Qed.
Lemma cdiv_ok : forall p r, (0 < r)%nat -> (p <= cdiv p r * r)%nat /\ (cdiv p r * r < p + r)%nat.
Proof.
  intros p r R. unfold cdiv. pose proof (Nat.div_mod (p + r - 1) r ltac:(lia)) as D. pose proof (Nat.mod_upper_bound (p + r - 1) r ltac:(lia)) as M. lia.
Qed.
Lemma inc_squeeze_loop_eq : forall r F, (0 < r)%nat -> forall fuel n k, (n <= fuel)%nat ->
  inc_squeeze_loop fuel r n (Nat.iter k StatePermute F, 0%nat) = (map (obyte r F) (seq (k * r) n), sq_at r F (k * r + n)).
Proof.
  intros r F R fuel. induction fuel as [|f IH]; intros n k L; (destruct n as [|n]; [|try lia]).
  - cbn [inc_squeeze_loop seq map]. unfold sq_at. rewrite Nat.add_0_r, (cdiv_unique _ _ k), Nat.sub_diag by lia. reflexivity.
  - cbn [inc_squeeze_loop seq map]. unfold sq_at. rewrite Nat.add_0_r, (cdiv_unique _ _ k), Nat.sub_diag by lia. reflexivity.
  - cbn [inc_squeeze_loop fst]. assert (ES : StatePermute (Nat.iter k StatePermute F) = Nat.iter (k + 1) StatePermute F) by (rewrite Nat.add_1_r, Nat_iter_S; reflexivity).
    rewrite ES. destruct (Nat.lt_ge_cases (S n) r) as [T|T].
    + rewrite Nat.min_l by lia. rewrite Nat.sub_diag.
      assert (Z0 : inc_squeeze_loop f r 0 (Nat.iter (k + 1) StatePermute F, (r - S n)%nat) = ([], (Nat.iter (k + 1) StatePermute F, (r - S n)%nat))) by (destruct f; reflexivity).
      rewrite Z0, app_nil_r. f_equal.
      * rewrite (seq_shift_map _ (obyte r F)). apply map_ext_in. intros i I. apply in_seq in I. unfold obyte.
        rewrite Nat.div_add_l, (Nat.div_small i), Nat.add_0_r, (Nat.add_comm (k * r)), Nat.mod_add, Nat.mod_small by lia. reflexivity.
      * unfold sq_at. rewrite (cdiv_unique _ _ (k + 1)) by lia. f_equal. lia.
    + rewrite Nat.min_r by lia. rewrite Nat.sub_diag, IH by lia. f_equal.
      * rewrite block_bytes by exact R. rewrite <- map_app. f_equal. replace (S n) with (r + (S n - r))%nat at 2 by lia. rewrite seq_app. do 2 f_equal. lia.
      * f_equal. lia.
Qed.
Theorem inc_squeeze_any : forall r F p n, (0 < r)%nat ->
  keccak_inc_squeeze r n (sq_at r F p) = (map (obyte r F) (seq p n), sq_at r F (p + n)).
Proof.
  intros r F p n R. destruct (cdiv_ok p r R) as [C1 C2]. unfold keccak_inc_squeeze, sq_at at 1. set (c := cdiv p r) in *.
  assert (H1 : map (fun i => state_byte (Nat.iter c StatePermute F) (r - (c * r - p) + i)) (seq 0 (Nat.min n (c * r - p))) = map (obyte r F) (seq p (Nat.min n (c * r - p)))).
  { rewrite (seq_shift_map _ (obyte r F)). apply map_ext_in. intros i I. apply in_seq in I. unfold obyte.
    clearbody c. destruct c as [|c]; [lia|]. cbn [Nat.mul] in *.
    assert (D : ((p + i) / r = c)%nat) by (symmetry; apply (Nat.div_unique _ _ _ (r - (r + c * r - p) + i)); lia).
    assert (M : ((p + i) mod r = r - (r + c * r - p) + i)%nat) by (symmetry; apply (Nat.mod_unique _ _ c); lia).
    rewrite D, M. f_equal. f_equal. lia. }
  destruct (Nat.le_gt_cases n (c * r - p)) as [T|T].
  - rewrite Nat.min_l in H1 |- * by exact T. rewrite H1, Nat.sub_diag. cbn [inc_squeeze_loop]. rewrite app_nil_r. f_equal.
    unfold sq_at. rewrite (cdiv_unique _ _ c) by lia. f_equal. lia.
  - rewrite Nat.min_r in H1 |- * by lia. rewrite H1, Nat.sub_diag, inc_squeeze_loop_eq by lia. f_equal; [|f_equal; lia].
    rewrite <- map_app. f_equal. replace (seq p n) with (seq p ((c * r - p) + (n - (c * r - p)))) by (f_equal; lia). rewrite seq_app. do 2 f_equal. lia.
Qed.
Lemma sq_at_0 : forall r F, (0 < r)%nat -> sq_at r F 0 = (F, 0%nat).
Proof. intros r F R. unfold sq_at. rewrite (cdiv_unique 0 r 0) by lia. reflexivity. Qed.

(** ** The specification's squeezing phase *)
Lemma sponge_squeeze_S : forall r n S, sponge_squeeze r (Datatypes.S n) S = firstn r S ++ sponge_squeeze r n (keccak_f S).
Proof. reflexivity. Qed.
Lemma firstn_sbits : forall s r, wf s -> (r <= 200)%nat -> firstn (8 * r) (sbits s) = bits_of_bytes (map (state_byte s) (seq 0 r)).
Proof.
  intros s r W R. assert (FL : List.length (firstn (8 * r) (sbits s)) = (8 * r)%nat) by (apply firstn_length_le; rewrite sbits_length; lia).
  apply (nth_ext _ _ false false); [rewrite FL, bits_length, map_length, seq_length; reflexivity|]. intros i I. rewrite FL in I.
  rewrite nth_firstn_lt by exact I. rewrite nth_sbits by lia. rewrite nth_bits. unfold mbit. pose proof (div_mod_8 i) as D. pose proof (mod_8 i) as M.
  rewrite (nth_indep _ 0 (state_byte s 0)) by (rewrite map_length, seq_length; lia). rewrite map_nth, seq_nth by lia. rewrite Nat.add_0_l.
  rewrite state_byte_bit by exact M. f_equal. exact D.
Qed.
Lemma spec_squeeze : forall r F, (0 < r <= 200)%nat -> wf F -> forall n k,
  sponge_squeeze (8 * r) n (sbits (Nat.iter (k + 1) StatePermute F)) = bits_of_bytes (map (obyte r F) (seq (k * r) (n * r))).
Proof.
  intros r F R W n. induction n as [|n IH]; intro k; [reflexivity|]. rewrite sponge_squeeze_S.
  assert (W' := iter_wf (k + 1) F W). rewrite firstn_sbits by (assumption || lia). rewrite block_bytes by lia.
  destruct (permute_is_keccak_f _ W') as [_ E]. rewrite <- E. rewrite <- Nat_iter_S. replace (S (k + 1)) with ((k + 1) + 1)%nat by lia. rewrite IH.
  rewrite <- bits_app, <- map_app. do 2 f_equal. replace (S n * r)%nat with (r + n * r)%nat by lia. rewrite seq_app. do 2 f_equal. lia.
Qed.
Lemma firstn_map_seq : forall A (f : nat -> A) d n, (d <= n)%nat -> firstn d (map f (seq 0 n)) = map f (seq 0 d).
Proof.
  intros A f d n L. replace n with (d + (n - d))%nat by lia. rewrite seq_app, map_app, firstn_app, map_length, seq_length, Nat.sub_diag, firstn_O, app_nil_r.
  apply firstn_all2. rewrite map_length, seq_length. lia.
Qed.
Lemma firstn_bits : forall d l, firstn (8 * d) (bits_of_bytes l) = bits_of_bytes (firstn d l).
Proof.
  intro d. induction d as [|d IH]; intro l; [reflexivity|]. destruct l as [|b l]; [rewrite !firstn_nil; reflexivity|].
  change (bits_of_bytes (b :: l)) with (bits_of_byte b ++ bits_of_bytes l). replace (8 * S d)%nat with (8 + 8 * d)%nat by lia.
  rewrite <- (bits_of_byte_length b) at 1. rewrite firstn_app_2, IH. reflexivity.
Qed.
(** The sponge on byte strings. *)
Theorem sponge_ok : forall r p sfx M d, rate r -> domain p sfx -> is_bytes M ->
  sponge (8 * r) (bits_of_bytes M ++ sfx) (8 * d) = bits_of_bytes (map (obyte r (padstate r p M)) (seq 0 d)).
Proof.
  intros r p sfx M d R DM B. pose proof (rate_bounds r R) as RB. unfold sponge. rewrite <- app_assoc.
  rewrite (spec_absorb r p sfx M R DM B). assert (W : wf (padstate r p M)) by (apply padstate_wf; (assumption || lia)).
  change (StatePermute (padstate r p M)) with (Nat.iter (0 + 1) StatePermute (padstate r p M)). rewrite spec_squeeze by (assumption || lia).
  rewrite Nat.div_mul_cancel_l by lia. rewrite firstn_bits, Nat.mul_0_l, firstn_map_seq; [reflexivity|].
  pose proof (Nat.div_mod d r ltac:(lia)). pose proof (Nat.mod_upper_bound d r ltac:(lia)). lia.
Qed.
