(** * SaberFull: key generation, encryption and decryption as functions of bytes (C58).

    The specification is written over integer polynomials modulo x^256 + 1 ([zdot], [zmat] of
    SaberSpec.v), centred binomial samples of a byte stream ([binomial_sample]) and bit-packed strings
    ([bit_packed] of Format.v).  It mentions none of the library's modular arithmetic, multiplication,
    packing or reconciliation code. *)
From Coq Require Import ZArith List Lia Bool Arith.
From Verif Require Import Base Bits SaberPoly SaberCodec2 SaberCodec3 Ring SaberRing SaberKem
  SaberVec SaberNoise SaberSpec SaberDec SaberDec2 SaberFacts SaberCbd SaberWitness PropsSaber Format.
Import ListNotations.
Open Scope Z_scope.
Local Opaque gen_matrix gen_secret noise pmul padd pzero star E sha3_256 sha3_512.

(** ** Specification *)
(** K polynomials of 256 coefficients. *)
Definition vec_shape (K : nat) (v : list (list Z)) : Prop :=
  length v = K /\ Forall (fun p => length p = 256%nat) v.
(** The first n bytes of a stream. *)
Definition stream_bytes (S : nat -> Z) (n : nat) : bytes := map (fun i => S i mod 256) (seq 0 n).
(** The public K x K matrix: 13-bit coefficients read from the stream, row by row. *)
Definition matrix_of_stream (K : nat) (S : nat -> Z) (A : list (list (list Z))) : Prop :=
  length A = K /\ Forall (fun row => vec_shape K row /\ Forall (Forall (fun x => 0 <= x < 8192)) row) A /\
  bit_packed 13 (concat (concat A)) (stream_bytes S (416 * K * K)).
(** The secret vector: consecutive centred binomial samples. *)
Definition secret_of_stream (K mu : nat) (S : nat -> Z) : list (list Z) :=
  map (fun p => map (fun c => binomial_sample S mu (256 * p + c)) (seq 0 256)) (seq 0 K).
(** A s rounded from 13 to 10 bits. *)
Definition rounded_product (K : nat) (A : list (list (list Z))) (s : list (list Z)) : list (list Z) :=
  map (map (fun x => ((x + 4) / 8) mod 1024)) (zmat K A s).
(** The value of hint x at position k in the ciphertext.  LightSaber (K = 2) writes, at the positions
    that are 5 mod 8, the high bit of the hint in place of its low bit. *)
Definition written_hint (K k : nat) (x : Z) : Z :=
  if (K =? 2)%nat && (k mod 8 =? 5)%nat then 2 * (x / 2) + x / 4 else x.
(** The ciphertext of message m for the public key string pk with coins r: parameters K, mu (binomial
    width) and R (reconciliation bits). *)
Definition encryption_of (K mu : nat) (R : Z) (xof : bytes -> nat -> Z) (pk m r ct : bytes) : Prop :=
  exists A b B' H,
    let s' := secret_of_stream K mu (xof r) in
    let hint k := ((512 * msg_bit m k + zdot K b s' k) mod 1024) / 2 ^ (9 - R) in
    matrix_of_stream K (xof (skipn (320 * K) pk)) A /\
    vec_shape K b /\ bit_packed 10 (concat b) (firstn (320 * K) pk) /\
    ct = B' ++ H /\
    bit_packed 10 (concat (rounded_product K (ztranspose K A) s')) B' /\
    bit_packed (Z.to_nat R + 1) (map (fun k => written_hint K k (hint k)) (seq 0 256)) H.

(** ** Auxiliary facts *)
Lemma skip_0 : forall {A} (l : list A), skipn 0 l = l. Proof. reflexivity. Qed.
Lemma bit_packed_ext : forall w l l' b, bit_packed w l b -> length l' = length l ->
  (forall k, (k < length l)%nat -> nth k l' 0 mod 2 ^ Z.of_nat w = nth k l 0 mod 2 ^ Z.of_nat w) -> bit_packed w l' b.
Proof.
  intros w l l' b (L & B & H) LL E. split; [lia|]. split; [exact B|]. intros k i Hk Hi. rewrite H by lia.
  rewrite <- (Z.mod_pow2_bits_low (nth k l 0) (Z.of_nat w)) by lia. rewrite <- E by lia. rewrite Z.mod_pow2_bits_low by lia. reflexivity.
Qed.
Lemma bit_packed_cong : forall w l l' b, bit_packed w l b -> bit_packed w l' b -> length l = length l' ->
  forall k, (k < length l)%nat -> nth k l 0 mod 2 ^ Z.of_nat w = nth k l' 0 mod 2 ^ Z.of_nat w.
Proof.
  intros w l l' b (_ & _ & H) (_ & _ & H') L k Hk.
  apply (bits_eq_below (Z.of_nat w)); [lia|apply Z.mod_pos_bound, Z.pow_pos_nonneg; lia|apply Z.mod_pos_bound, Z.pow_pos_nonneg; lia|].
  intros n Hn. rewrite !Z.mod_pow2_bits_low by lia.
  specialize (H k (Z.to_nat n) Hk ltac:(lia)). specialize (H' k (Z.to_nat n) ltac:(lia) ltac:(lia)).
  rewrite Z2Nat.id in H, H' by lia. congruence.
Qed.
Lemma bit_packed_map_mod : forall w l b, bit_packed w l b -> bit_packed w (map (fun x => x mod 2 ^ Z.of_nat w) l) b.
Proof.
  intros w l b H. eapply bit_packed_ext; [exact H|apply map_length|]. intros k Hk.
  rewrite (nth_map_in (fun x => x mod 2 ^ Z.of_nat w) l k 0 0) by exact Hk. apply Z.mod_mod. apply Z.pow_nonzero; lia.
Qed.
Lemma concat_nth : forall n (v : list (list Z)) i q, Forall (fun p => length p = n) v -> (i < length v)%nat -> (q < n)%nat ->
  nth (n * i + q) (concat v) 0 = nth q (nth i v []) 0.
Proof.
  intros n v. induction v as [|a v IH]; intros i q F Hi Hq; [cbn in Hi; lia|]. inversion F as [|? ? La F']; subst. cbn [concat].
  destruct i as [|i].
  - rewrite Nat.mul_0_r. cbn [plus nth]. apply app_nth1. exact Hq.
  - rewrite app_nth2 by lia. replace (length a * S i + q - length a)%nat with (length a * i + q)%nat by lia. cbn [nth length] in *.
    apply IH; [exact F'|lia|exact Hq].
Qed.
Lemma concat_len : forall n (v : list (list Z)), Forall (fun p => length p = n) v -> length (concat v) = (n * length v)%nat.
Proof. intros n v F. induction F as [|a v L F IH]; [cbn; lia|]. cbn [concat length]. rewrite app_length, IH, L. lia. Qed.
Lemma wf_shape : forall K v, wf_vec K v -> vec_shape K v.
Proof. intros K v [L F]. split; [exact L|]. eapply Forall_impl; [|exact F]. intros p [Hp _]. exact Hp. Qed.
Lemma shape_in : forall K v i, vec_shape K v -> (i < K)%nat -> length (nth i v []) = 256%nat.
Proof. intros K v i [L F] Hi. rewrite Forall_forall in F. apply F, nth_In. lia. Qed.

(** *** Sampling *)
Lemma secret_csec : forall h I seed, param_set I -> csec (gen_secret h I seed) = secret_of_stream (sK I) (sMU I) (shake128 h seed).
Proof.
  intros h I seed HI. destruct (secret_shape h I seed HI) as [L F].
  apply (nth_ext _ _ [] []); [unfold csec, secret_of_stream; rewrite !map_length, seq_length; exact L|].
  intros p Hp. unfold csec in Hp. rewrite map_length, L in Hp. unfold csec, secret_of_stream.
  rewrite (nth_map_in (map signed16) _ p [] []) by lia.
  rewrite (nth_map_in _ (seq 0 (sK I)) p [] 0%nat) by (rewrite seq_length; exact Hp). rewrite seq_nth by exact Hp. cbn [plus].
  assert (Lp : length (nth p (gen_secret h I seed) []) = 256%nat) by (rewrite Forall_forall in F; apply F, nth_In; lia).
  apply (nth_ext _ _ 0 0); [rewrite !map_length, seq_length; exact Lp|].
  intros c Hc. rewrite map_length, Lp in Hc. rewrite (nth_map_in signed16 _ c 0 0) by lia.
  rewrite (nth_map_in _ (seq 0 256) c 0 0%nat) by (rewrite seq_length; exact Hc). rewrite seq_nth by exact Hc. cbn [plus].
  apply gen_secret_spec; assumption.
Qed.

Lemma draw_stream : forall n x, fst (draw n x) = stream_bytes x n. Proof. reflexivity. Qed.
Lemma stream_ext : forall n x y, (forall j, x j = y j) -> stream_bytes x n = stream_bytes y n.
Proof. intros n x y H. apply map_ext. intro i. rewrite H. reflexivity. Qed.
Lemma seq_map_shift : forall n k a, map (fun i => (n + i)%nat) (seq a k) = seq (n + a) k.
Proof. intros n k. induction k as [|k IH]; intro a; [reflexivity|]. cbn [seq map]. rewrite IH. f_equal. f_equal. lia. Qed.
Lemma stream_split : forall n m x, stream_bytes x (n + m) = stream_bytes x n ++ stream_bytes (fun j => x (n + j)%nat) m.
Proof.
  intros n m x. unfold stream_bytes. rewrite seq_app, map_app. f_equal. cbn [plus].
  replace (seq n m) with (map (fun i => (n + i)%nat) (seq 0 m)) by (rewrite seq_map_shift, Nat.add_0_r; reflexivity).
  rewrite map_map. reflexivity.
Qed.
Lemma read_many_packed : forall {A} (F : A -> list Z) (rd : rng -> A * rng) n,
  (forall x, bit_packed 13 (F (fst (rd x))) (stream_bytes x n) /\ forall j, snd (rd x) j = x (n + j)%nat) ->
  forall k x, bit_packed 13 (flat_map F (fst (read_many k rd x))) (stream_bytes x (n * k)) /\
    forall j, snd (read_many k rd x) j = x (n * k + j)%nat.
Proof.
  intros A F rd n H. induction k as [|k IH]; intro x; cbn [read_many].
  - rewrite Nat.mul_0_r. split; [apply bit_packed_nil|]. intro j. reflexivity.
  - destruct (H x) as [H1 H2]. destruct (rd x) as [a x1]. destruct (IH x1) as [I1 I2]. destruct (read_many k rd x1) as [l x2].
    cbn [fst snd flat_map] in *. replace (n * S k)%nat with (n + n * k)%nat by lia. split.
    + rewrite stream_split. apply bit_packed_app; [exact H1|]. rewrite <- (stream_ext _ _ _ H2). exact I1.
    + intro j. rewrite I2, H2. f_equal. lia.
Qed.

Lemma stream_bytes_ok : forall S n, length (stream_bytes S n) = n /\ is_bytes (stream_bytes S n).
Proof.
  intros S n. split; [unfold stream_bytes; rewrite map_length, seq_length; reflexivity|].
  apply Forall_forall. intros v Hv. apply in_map_iff in Hv. destruct Hv as [j [<- _]]. apply Z.mod_pos_bound. lia.
Qed.
Lemma read_poly_eq : forall x, fst (read_poly x) = from_bytes_13bit (stream_bytes x 416) /\ (forall j, snd (read_poly x) j = x (416 + j)%nat).
Proof. intro x. split; reflexivity. Qed.
Lemma from13_range : forall b, length b = 416%nat -> is_bytes b -> Forall (fun x => 0 <= x < 8192) (from_bytes_13bit b).
Proof.
  intros b L B. rewrite <- (read13_from13 b L B). rewrite from13_read13 by apply fill_poly_length.
  apply Forall_map, Forall_forall. intros x _. apply Z.mod_pos_bound. lia.
Qed.
Lemma flat_map_id : forall {A} (l : list (list A)), flat_map (fun x => x) l = concat l.
Proof. induction l as [|a l IH]; [reflexivity|]. cbn [flat_map concat]. rewrite IH. reflexivity. Qed.
Lemma flat_map_concat2 : forall {A} (l : list (list (list A))), flat_map (fun x => concat x) l = concat (concat l).
Proof. induction l as [|a l IH]; [reflexivity|]. cbn [flat_map concat]. rewrite IH, concat_app. reflexivity. Qed.
Local Transparent gen_matrix.
Theorem matrix_spec : forall h I seed, matrix_of_stream (sK I) (shake128 h seed) (gen_matrix h I seed).
Proof.
  intros h I seed. destruct (gen_matrix_wf h I seed) as [L F]. split; [exact L|]. split.
  - unfold gen_matrix. apply read_many_forall. intro y. split; [split; [apply read_many_length|]|]; apply read_many_forall; intro z;
      rewrite (proj1 (read_poly_eq z)).
    + apply fill_poly_length.
    + apply from13_range; apply stream_bytes_ok.
  - unfold gen_matrix. rewrite <- flat_map_concat2.
    apply (read_many_packed (fun x : list (list Z) => concat x) (read_many (sK I) read_poly) (416 * sK I)).
    intro x. rewrite <- (flat_map_id (fst (read_many (sK I) read_poly x))).
    apply (read_many_packed (fun x : list Z => x) read_poly 416). clear. intro x. destruct (read_poly_eq x) as [E1 E2]. split; [|exact E2].
    rewrite E1. apply saber_13bit_parse; apply stream_bytes_ok.
Qed.
Local Opaque gen_matrix.

(** *** Arithmetic *)
Lemma d65536 : (65536 | 65536). Proof. exists 1. reflexivity. Qed.
Lemma vmul_zdot : forall K a b k, wf_vec K b -> length a = K -> (k < 256)%nat ->
  at_ (vmul a b) k mod 65536 = zdot K a (csec b) k mod 65536.
Proof.
  intros K a b k Hb La Hk. rewrite zdot_dot by exact Hk. rewrite <- (E_at _ _ Hk).
  revert k Hk. assert (C : cong 65536 (E (vmul a b)) (dot K (V a) (V (csec b)))); [|intros k _; apply C].
  eapply cong_trans; [apply (E_vmul 65536 ltac:(lia) d65536 K); [exact La|apply Hb]|].
  apply cong_dot; intros j Hj; [apply cong_refl|]. apply cong_sym. apply V_csec.
  - intros p Hp. eapply wf_in_length; [exact Hb|exact Hp].
  - rewrite (proj1 Hb). exact Hj.
Qed.
Lemma fold_left_ext_in : forall {A B} (f g : A -> B -> A) l acc, (forall a j, In j l -> f a j = g a j) -> fold_left f l acc = fold_left g l acc.
Proof.
  intros A B f g l. induction l as [|j l IH]; intros acc H; [reflexivity|]. cbn [fold_left].
  rewrite (H acc j (or_introl eq_refl)). apply IH. intros; apply H; right; assumption.
Qed.
Lemma mat_mul_transpose_eq : forall K (M : matrix) v, length M = K -> length v = K ->
  mat_mul_transpose M v = mat_mul (ztranspose K M) v.
Proof.
  intros K M v LM Lv. unfold mat_mul_transpose, mat_mul, ztranspose. rewrite LM, map_map. apply map_ext_in. intros i Hi. apply in_seq in Hi.
  rewrite (vmul_seq K); [|rewrite map_length, seq_length; reflexivity|exact Lv].
  apply fold_left_ext_in. intros acc j Hj. apply in_seq in Hj.
  rewrite (nth_map_in (fun j => nth i (nth j M []) []) (seq 0 K) j [] 0%nat) by (rewrite seq_length; lia).
  rewrite seq_nth by lia. reflexivity.
Qed.
Lemma rnd10 : forall x y, x mod 65536 = y mod 65536 -> (u16 (x + 4) >> 3) mod 1024 = ((y + 4) / 8) mod 1024.
Proof.
  intros x y H. rewrite Z.shiftr_div_pow2 by lia. change (2 ^ 3) with 8. unfold u16.
  assert (E : (x + 4) mod 65536 = (y + 4) mod 65536) by (rewrite <- Zplus_mod_idemp_l, H, Zplus_mod_idemp_l; reflexivity).
  rewrite E. clear H E x. set (z := y + 4). clearbody z. Z.div_mod_to_equations. lia.
Qed.
Lemma rounded_eq : forall K (M : matrix) v, length M = K -> (forall i, (i < K)%nat -> length (nth i M []) = K) -> wf_vec K v ->
  vmap_mod 1024 (rnd_vec (mat_mul M v)) = rounded_product K M (csec v).
Proof.
  intros K M v LM LR W. unfold vmap_mod, rnd_vec, mat_mul, rounded_product, zmat. rewrite !map_map.
  apply (nth_ext _ _ [] []); [rewrite !map_length, seq_length; exact LM|]. intros i Hi. rewrite map_length, LM in Hi.
  rewrite (nth_map_in _ M i [] []) by lia. rewrite (nth_map_in _ (seq 0 K) i [] 0%nat) by (rewrite seq_length; exact Hi).
  rewrite seq_nth by exact Hi. cbn [plus]. rewrite map_map. unfold rnd_poly, pshr, padd_c. rewrite !map_map.
  pose proof (proj1 (vmul_wf (nth i M []) v)) as LV.
  apply (nth_ext _ _ 0 0); [rewrite !map_length, seq_length; exact LV|]. intros k Hk. rewrite map_length, LV in Hk.
  rewrite (nth_map_in _ (vmul (nth i M []) v) k 0 0) by lia.
  rewrite (nth_map_in _ (seq 0 256) k 0 0%nat) by (rewrite seq_length; exact Hk). rewrite seq_nth by exact Hk. cbn [plus].
  apply rnd10. apply vmul_zdot; [exact W|apply LR; exact Hi|exact Hk].
Qed.
Lemma read_p_packed : forall K v, wf_vec K v -> bit_packed 10 (concat (vmap_mod 1024 v)) (read_mod_p v).
Proof.
  intros K v W. unfold vmap_mod. rewrite <- concat_map. apply (bit_packed_map_mod 10). apply saber_pk_vec_format.
  apply (wf_shape K v W).
Qed.
Lemma ztranspose_rows : forall K (A : matrix) i, (i < K)%nat -> length (nth i (ztranspose K A) []) = K.
Proof.
  intros K A i Hi. unfold ztranspose. rewrite (nth_map_in _ (seq 0 K) i [] 0%nat) by (rewrite seq_length; exact Hi).
  rewrite map_length, seq_length. reflexivity.
Qed.
Lemma ztranspose_length : forall K (A : matrix), length (ztranspose K A) = K.
Proof. intros. unfold ztranspose. rewrite map_length, seq_length. reflexivity. Qed.
Lemma gen_matrix_rows : forall h I seed i, (i < sK I)%nat -> length (nth i (gen_matrix h I seed) []) = sK I.
Proof.
  intros h I seed i Hi. destruct (gen_matrix_wf h I seed) as [L F]. rewrite Forall_forall in F. apply (F (nth i (gen_matrix h I seed) [])).
  apply nth_In. lia.
Qed.

(** *** Hints *)
Lemma read_hint_packed : forall I p, param_set I -> length p = DEG ->
  (forall j, (j < DEG)%nat -> 0 <= at_ p j < 2 ^ (sRECON I + 1)) ->
  bit_packed (Z.to_nat (sRECON I) + 1) (map (fun k => written_hint (sK I) k (at_ p k)) (seq 0 256)) (recon_pack I p).
Proof.
  intros I p HI L R.
  assert (M : forall f, (forall k, (k < 256)%nat -> f k = at_ p k) -> map f (seq 0 256) = p).
  { intros f Hf. apply (nth_ext _ _ 0 0); [rewrite map_length, seq_length; symmetry; exact L|].
    intros k Hk. rewrite map_length, seq_length in Hk. rewrite (nth_map_in f (seq 0 256) k 0 0%nat) by (rewrite seq_length; exact Hk).
    rewrite seq_nth by exact Hk. apply Hf. exact Hk. }
  destruct HI; cbn [sRECON sK recon_pack LightSaber Saber FireSaber] in *.
  - replace (map _ (seq 0 256)) with (mapi hint3_back p); [apply saber_3bit_format; exact L|].
    apply (nth_ext _ _ 0 0); [unfold mapi; rewrite mapi_from_length, map_length, seq_length; exact L|].
    intros k Hk. unfold mapi in Hk. rewrite mapi_from_length, L in Hk. unfold mapi.
    rewrite (nth_mapi_from hint3_back p 0 k 0 0) by lia. cbn [plus].
    rewrite (nth_map_in _ (seq 0 256) k 0 0%nat) by (rewrite seq_length; exact Hk). rewrite seq_nth by exact Hk. cbn [plus].
    fold (at_ p k). specialize (R k Hk). change (2 ^ (2 + 1)) with 8 in R. unfold hint3_back, written_hint, damage3.
    rewrite (Z.mod_small (at_ p k) 8) by exact R. cbn [Nat.eqb andb]. destruct (k mod 8 =? 5)%nat; [|reflexivity].
    pose proof (Z.div_mod (at_ p k) 2 ltac:(lia)). lia.
  - rewrite M by reflexivity. apply saber_4bit_format. exact L.
  - rewrite M by reflexivity. apply saber_6bit_format. exact L.
Qed.
Lemma unpack_hint_packed : forall I b, param_set I -> length b = RECONBYTES_KEM I -> is_bytes b ->
  length (recon_unpack I b) = DEG /\ bit_packed (Z.to_nat (sRECON I) + 1) (recon_unpack I b) b.
Proof.
  intros I b HI L B. destruct HI; cbn [sRECON recon_unpack LightSaber Saber FireSaber] in *.
  - split; [apply fill_poly_length|apply saber_3bit_parse; assumption].
  - split; [apply fill_poly_length|apply saber_4bit_parse; assumption].
  - split; [apply fill_poly_length|apply saber_6bit_parse; assumption].
Qed.

(** ** C58: encryption *)
Lemma poly_bytes_K : forall I, param_set I -> POLYVECCOMPRESSEDBYTES I = (320 * sK I)%nat.
Proof. intros I []; reflexivity. Qed.
Lemma pk_string_split : forall h I pk, param_set I -> api_pk h I pk ->
  firstn (320 * sK I) (pk_to_bytes pk) = read_mod_p (pk_vec pk) /\ skipn (320 * sK I) (pk_to_bytes pk) = pk_seed pk.
Proof.
  intros h I pk HI HP. destruct (api_pk_wf h I pk HI HP) as (W & _). unfold pk_to_bytes.
  assert (L : length (read_mod_p (pk_vec pk)) = (320 * sK I)%nat) by (rewrite (read_mod_p_length (sK I)); [lia|exact W]).
  rewrite <- L. split.
  - rewrite firstn_app, firstn_all, Nat.sub_diag. cbn [firstn]. apply app_nil_r.
  - rewrite skipn_app, skipn_all, Nat.sub_diag. reflexivity.
Qed.
Lemma vmap_mod_shape : forall K M v, wf_vec K v -> vec_shape K (vmap_mod M v).
Proof.
  intros K M v [L F]. unfold vmap_mod. split; [rewrite map_length; exact L|]. apply Forall_map. eapply Forall_impl; [|exact F].
  intros p [Lp _]. cbv beta. rewrite map_length. exact Lp.
Qed.
Lemma mod_1024_of : forall x y, x mod 65536 = y mod 65536 -> x mod 1024 = y mod 1024.
Proof. intros x y H. rewrite <- (mod_mod_divide x 1024 65536), <- (mod_mod_divide y 1024 65536), H; try lia; try (exists 64; reflexivity); reflexivity. Qed.

Lemma zdot_cong : forall K a a' b b' m k, m <> 0 -> vec_shape K a -> vec_shape K a' -> vec_shape K b -> vec_shape K b' ->
  (forall i c, (i < K)%nat -> (c < 256)%nat -> nth c (nth i a []) 0 mod m = nth c (nth i a' []) 0 mod m) ->
  (forall i c, (i < K)%nat -> (c < 256)%nat -> nth c (nth i b []) 0 mod m = nth c (nth i b' []) 0 mod m) ->
  (k < 256)%nat -> zdot K a b k mod m = zdot K a' b' k mod m.
Proof.
  intros K a a' b b' m k Hm Sa Sa' Sb Sb' Ha Hb Hk. rewrite !zdot_dot by exact Hk.
  apply cong_dot; intros j Hj; unfold V; apply cong_coeffs; try apply E_anti; intros c Hc; rewrite !E_at by exact Hc.
  - apply Ha; assumption.
  - apply Hb; assumption.
Qed.
Lemma packed_shape_cong : forall w K a a' B, vec_shape K a -> vec_shape K a' -> bit_packed w (concat a) B -> bit_packed w (concat a') B ->
  forall i c, (i < K)%nat -> (c < 256)%nat -> nth c (nth i a []) 0 mod 2 ^ Z.of_nat w = nth c (nth i a' []) 0 mod 2 ^ Z.of_nat w.
Proof.
  intros w K a a' B [L F] [L' F'] P P' i c Hi Hc.
  rewrite <- (concat_nth 256 a i c F) by lia. rewrite <- (concat_nth 256 a' i c F') by lia.
  apply (bit_packed_cong w _ _ B P P'); rewrite !(concat_len 256) by assumption; rewrite ?L, ?L'; [reflexivity|]. nia.
Qed.
Lemma recon_gen_packed : forall I mp g, param_set I -> length mp = DEG ->
  (forall k, (k < 256)%nat -> at_ mp k mod 1024 = g k mod 1024) ->
  bit_packed (Z.to_nat (sRECON I) + 1) (map (fun k => written_hint (sK I) k ((g k mod 1024) / 2 ^ (9 - sRECON I))) (seq 0 256)) (recon_data_gen I mp).
Proof.
  intros I mp g HI L G. unfold recon_data_gen.
  assert (Q : forall j, (j < DEG)%nat -> at_ (pshr (reduce P mp) (EPS_P - sRECON I - 1)) j = (g j mod 1024) / 2 ^ (9 - sRECON I)).
  { intros j Hj. unfold pshr, reduce. rewrite map_map, map_at by lia.
    rewrite hint_coeff by (destruct (cexp_range I HI); unfold cexp in *; lia). rewrite G by exact Hj. f_equal. f_equal. unfold EPS_P. lia. }
  assert (LQ : length (pshr (reduce P mp) (EPS_P - sRECON I - 1)) = DEG) by (unfold pshr, reduce; rewrite !map_length; exact L).
  assert (R : forall j, (j < DEG)%nat -> 0 <= at_ (pshr (reduce P mp) (EPS_P - sRECON I - 1)) j < 2 ^ (sRECON I + 1)).
  { intros j Hj. rewrite Q by exact Hj. pose proof (hint_range I (g j) HI) as H. unfold cexp, EPS_P in H.
    replace (10 - sRECON I - 1) with (9 - sRECON I) in H by lia. exact H. }
  pose proof (read_hint_packed I _ HI LQ R) as H.
  erewrite map_ext_in; [exact H|]. intros k Hk. apply in_seq in Hk. cbv beta. rewrite Q by (unfold DEG; lia). reflexivity.
Qed.

Lemma csec_shape : forall K v, wf_vec K v -> vec_shape K (csec v).
Proof.
  intros K v [L F]. split; [unfold csec; rewrite map_length; exact L|]. unfold csec. apply Forall_map.
  eapply Forall_impl; [|exact F]. intros p [Lp _]. cbv beta. rewrite map_length. exact Lp.
Qed.
Theorem encryption_spec : forall h I m r pk, param_set I -> api_pk h I pk -> length m = 32%nat ->
  encryption_of (sK I) (sMU I) (sRECON I) (shake128 h) (pk_to_bytes pk) m r (indcpa_enc h I m r pk).
Proof.
  intros h I m r pk HI HP Lm. destruct (api_pk_wf h I pk HI HP) as (W & LS & BS).
  destruct (pk_string_split h I pk HI HP) as [PF PS]. unfold encryption_of.
  set (K := sK I) in *. set (sec := gen_secret h I r). set (A := gen_matrix h I (pk_seed pk)).
  assert (WS : wf_vec K sec) by (apply gen_secret_wf; exact HI).
  exists A, (vmap_mod 1024 (pk_vec pk)), (read_mod_p (rnd_vec (mat_mul_transpose A sec))), (recon_data_gen I (padd (from_msg m) (vmul (pk_vec pk) sec))).
  cbv zeta. rewrite PF, PS. pose proof (secret_csec h I r HI) as SC. fold K sec in SC. rewrite <- SC.
  assert (LA : length A = K) by (apply gen_matrix_wf).
  split; [apply matrix_spec|]. split; [apply vmap_mod_shape; exact W|]. split; [apply (read_p_packed K); exact W|].
  split; [|split].
  - destruct (enc_split h I m r pk HI) as [E1 E2]. rewrite <- (firstn_skipn (POLYVECCOMPRESSEDBYTES I) (indcpa_enc h I m r pk)).
    rewrite E1, E2. reflexivity.
  - rewrite (mat_mul_transpose_eq K) by (try exact LA; apply WS).
    rewrite <- (rounded_eq K) by (try apply ztranspose_length; try exact WS; intros; apply ztranspose_rows; assumption).
    apply (read_p_packed K). apply rnd_vec_wf, mat_mul_wf. apply ztranspose_length.
  - apply (recon_gen_packed I _ (fun k => 512 * msg_bit m k + zdot K (vmap_mod 1024 (pk_vec pk)) (csec sec) k) HI).
    { apply padd_wf; [apply from_msg_length|apply vmul_wf]. }
    intros k Hk. rewrite padd_at by (try exact Hk; try apply from_msg_length; apply vmul_wf).
    rewrite u16_mod by (try lia; exists 64; reflexivity). rewrite from_msg_at by assumption.
    rewrite <- Zplus_mod_idemp_r. rewrite (mod_1024_of _ _ (vmul_zdot K _ sec k WS (proj1 W) Hk)).
    rewrite <- (Zplus_mod_idemp_r (zdot K (vmap_mod 1024 (pk_vec pk)) (csec sec) k)).
    assert (EQ : zdot K (pk_vec pk) (csec sec) k mod 1024 = zdot K (vmap_mod 1024 (pk_vec pk)) (csec sec) k mod 1024); [|rewrite EQ; reflexivity].
    assert (SS : vec_shape K (csec sec)).
    { apply csec_shape. exact WS. }
    apply (zdot_cong K); try assumption; try lia.
    + apply wf_shape; exact W.
    + apply vmap_mod_shape; exact W.
    + intros i c Hi Hc. unfold vmap_mod. rewrite (nth_map_in _ (pk_vec pk) i [] []) by (rewrite (proj1 W); exact Hi).
      rewrite (nth_map_in _ (nth i (pk_vec pk) []) c 0 0) by (rewrite (shape_in K _ i (wf_shape _ _ W) Hi); exact Hc).
      symmetry. apply Z.mod_mod. lia.
Qed.

(** ** C58: decryption *)
Lemma nth_div_bits : forall p k, length p = DEG -> Forall (fun x => x = 0 \/ x = 1) p -> (k < DEG)%nat ->
  msg_bit (read_bytes_msg p) k = at_ p k.
Proof.
  intros p k L F Hk. pose proof (bits_read_msg p L F) as E.
  assert (LB : (k < length (read_bytes_msg p) * 8)%nat).
  { rewrite <- byte_bits_length, E, L. exact Hk. }
  rewrite <- nth_flat_bits by exact LB. rewrite E. reflexivity.
Qed.
Definition any_sk_cpa (h : saber_prims) (I : saber_impl) (sk : sk_cpa) : Prop :=
  api_sk_cpa h I sk \/ exists sk', api_sk h I sk' /\ sk = sk_sk_cpa sk'.
Lemma any_sk_wf : forall h I sk, param_set I -> any_sk_cpa h I sk -> wf_vec (sK I) (sk_vec sk).
Proof.
  intros h I sk HI [H|[sk' [H ->]]]; [apply (api_sk_cpa_wf h I sk HI H)|]. apply (api_sk_wf h I sk' HI H).
Qed.
Lemma from_p_packed : forall I b, param_set I -> length b = (320 * sK I)%nat -> is_bytes b ->
  bit_packed 10 (concat (from_bytes_mod_p I b)) b.
Proof.
  intros I b HI L B. assert (L' : length b = (sK I * 320)%nat) by lia. rewrite <- (mod_p_back I b L' B) at 2.
  apply saber_pk_vec_format. apply (wf_shape (sK I)). apply from_mod_p_wf; assumption.
Qed.
Lemma bytes_firstn : forall n b, is_bytes b -> is_bytes (firstn n b).
Proof. intros n b B. rewrite <- (firstn_skipn n b) in B. apply Forall_app in B. apply B. Qed.
Lemma bytes_skipn : forall n b, is_bytes b -> is_bytes (skipn n b).
Proof. intros n b B. rewrite <- (firstn_skipn n b) in B. apply Forall_app in B. apply B. Qed.

Theorem decryption_spec : forall h I sk ct s b hs, param_set I -> any_sk_cpa h I sk ->
  length ct = BYTES_CCA_DEC I -> is_bytes ct ->
  vec_shape (sK I) s -> bit_packed 13 (concat s) (indcpa_sk_to_bytes sk) ->
  vec_shape (sK I) b -> bit_packed 10 (concat b) (firstn (320 * sK I) ct) ->
  length hs = 256%nat -> bit_packed (Z.to_nat (sRECON I) + 1) hs (skipn (320 * sK I) ct) ->
  length (decapsulate_ind_cpa I ct sk) = 32%nat /\ is_bytes (decapsulate_ind_cpa I ct sk) /\
  forall k, (k < 256)%nat ->
    msg_bit (decapsulate_ind_cpa I ct sk) k =
    ((zdot (sK I) b s k - nth k hs 0 * 2 ^ (9 - sRECON I) + 256 - 2 ^ (8 - sRECON I)) mod 1024) / 512.
Proof.
  intros h I sk ct s b hs HI HS LC BC Ss Ps Sb Pb Lh Ph. pose proof (any_sk_wf h I sk HI HS) as W.
  split; [apply (dec_length I sk ct HI BC)|]. split; [apply (dec_length I sk ct HI BC)|]. intros k Hk.
  unfold decapsulate_ind_cpa, indcpa_dec. rewrite (poly_bytes_K I HI).
  assert (LF : length (firstn (320 * sK I) ct) = (320 * sK I)%nat).
  { rewrite firstn_length, LC. unfold BYTES_CCA_DEC. rewrite (poly_bytes_K I HI). lia. }
  assert (LR : length (skipn (320 * sK I) ct) = RECONBYTES_KEM I).
  { rewrite skipn_length, LC. unfold BYTES_CCA_DEC. rewrite (poly_bytes_K I HI). lia. }
  pose proof (bytes_firstn (320 * sK I) ct BC) as BF. pose proof (bytes_skipn (320 * sK I) ct BC) as BR.
  set (F := firstn (320 * sK I) ct) in *. set (R := skipn (320 * sK I) ct) in *.
  destruct (unpack_hint_packed I R HI LR BR) as [LU PU].
  pose proof (proj1 (vmul_wf (from_bytes_mod_p I F) (sk_vec sk))) as LV.
  assert (LRC : length (recon I R (vmul (from_bytes_mod_p I F) (sk_vec sk))) = DEG).
  { unfold recon. rewrite map2_length, LU, LV. apply Nat.min_id. }
  assert (AT : forall j, (j < DEG)%nat -> at_ (recon I R (vmul (from_bytes_mod_p I F) (sk_vec sk))) j =
    ((at_ (vmul (from_bytes_mod_p I F) (sk_vec sk)) j - at_ (recon_unpack I R) j * 2 ^ cexp I + 256 - 2 ^ (cexp I - 1)) mod 1024) / 512).
  { intros j Hj. unfold recon. rewrite map2_at by lia. apply recon_coeff_any. exact HI. }
  rewrite nth_div_bits; [|exact LRC| |exact Hk].
  2:{ apply Forall_forall. intros x Hx. apply (In_nth _ _ 0) in Hx. destruct Hx as [j [Hj <-]]. rewrite LRC in Hj.
      fold (at_ (recon I R (vmul (from_bytes_mod_p I F) (sk_vec sk))) j). rewrite AT by exact Hj.
      match goal with |- ?z mod 1024 / 512 = 0 \/ _ => pose proof (Z.mod_pos_bound z 1024 ltac:(lia)); generalize dependent (z mod 1024) end.
      intros z Hz. Z.div_mod_to_equations. lia. }
  rewrite AT by exact Hk. f_equal. unfold cexp, EPS_P. replace (10 - sRECON I - 1) with (9 - sRECON I) by lia.
  replace (9 - sRECON I - 1) with (8 - sRECON I) by lia.
  assert (LFv : wf_vec (sK I) (from_bytes_mod_p I F)) by (apply from_mod_p_wf; [lia|exact BF]).
  assert (EV : at_ (vmul (from_bytes_mod_p I F) (sk_vec sk)) k mod 1024 = zdot (sK I) b s k mod 1024).
  { rewrite (mod_1024_of _ _ (vmul_zdot (sK I) _ _ k W (proj1 LFv) Hk)).
    apply zdot_cong; try assumption; try lia.
    - apply wf_shape; exact LFv.
    - apply csec_shape; exact W.
    - intros i c Hi Hc. change 1024 with (2 ^ Z.of_nat 10). eapply packed_shape_cong; try eassumption; [apply wf_shape; exact LFv|].
      apply from_p_packed; assumption.
    - intros i c Hi Hc.
      assert (Q : nth c (nth i (sk_vec sk) []) 0 mod 8192 = nth c (nth i s []) 0 mod 8192).
      { change 8192 with (2 ^ Z.of_nat 13). eapply packed_shape_cong; try eassumption; [apply wf_shape; exact W|].
        apply saber_sk_vec_format. apply (wf_shape (sK I)). exact W. }
      unfold csec. rewrite (nth_map_in _ (sk_vec sk) i [] []) by (rewrite (proj1 W); exact Hi).
      rewrite (nth_map_in _ (nth i (sk_vec sk) []) c 0 0) by (rewrite (shape_in (sK I) _ i (wf_shape _ _ W) Hi); exact Hc).
      rewrite (mod_1024_of _ _ (signed16_mod _)).
      rewrite <- (mod_mod_divide _ 1024 8192), Q, mod_mod_divide; try lia; try (exists 8; reflexivity). }
  assert (EH : (at_ (recon_unpack I R) k * 2 ^ (9 - sRECON I)) mod 1024 = (nth k hs 0 * 2 ^ (9 - sRECON I)) mod 1024).
  { pose proof (bit_packed_cong _ _ _ _ PU Ph (eq_trans LU (eq_sym Lh)) k (eq_ind_r (fun n => (k < n)%nat) Hk LU)) as Q. fold (at_ (recon_unpack I R) k) in Q.
    clear - HI Q. destruct HI; cbn [sRECON LightSaber Saber FireSaber] in *.
    - change (2 ^ Z.of_nat (Z.to_nat 2 + 1)) with 8 in Q. change (2 ^ (9 - 2)) with 128. change 1024 with (8 * 128). rewrite !Zmult_mod_distr_r, Q. reflexivity.
    - change (2 ^ Z.of_nat (Z.to_nat 3 + 1)) with 16 in Q. change (2 ^ (9 - 3)) with 64. change 1024 with (16 * 64). rewrite !Zmult_mod_distr_r, Q. reflexivity.
    - change (2 ^ Z.of_nat (Z.to_nat 5 + 1)) with 64 in Q. change (2 ^ (9 - 5)) with 16. change 1024 with (64 * 16). rewrite !Zmult_mod_distr_r, Q. reflexivity. }
  revert EV EH. generalize (at_ (vmul (from_bytes_mod_p I F) (sk_vec sk)) k) (zdot (sK I) b s k) (at_ (recon_unpack I R) k * 2 ^ (9 - sRECON I))
    (nth k hs 0 * 2 ^ (9 - sRECON I)) (2 ^ (8 - sRECON I)). clear. intros x x' y y' z EX EY.
  apply mod_eq_ex in EX; [|lia]. apply mod_eq_ex in EY; [|lia]. destruct EX as [t ->]. destruct EY as [u ->].
  replace (x' + 1024 * t - (y' + 1024 * u) + 256 - z) with (x' - y' + 256 - z + (t - u) * 1024) by lia. apply Z_mod_plus_full.
Qed.

(** ** C58: key generation *)
Lemma secret_packed : forall K v, wf_vec K v -> bit_packed 13 (concat (csec v)) (read_mod_q v).
Proof.
  intros K v W. pose proof (wf_shape K v W) as Sh. eapply bit_packed_ext; [apply saber_sk_vec_format; apply Sh|unfold csec; rewrite <- concat_map; apply map_length|].
  intros k Hk. unfold csec. rewrite <- concat_map. rewrite (nth_map_in signed16 (concat v) k 0 0) by exact Hk.
  change (2 ^ Z.of_nat 13) with 8192. rewrite <- (mod_mod_divide (signed16 _) 8192 65536), signed16_mod, mod_mod_divide; try lia; exists 8; reflexivity.
Qed.
Theorem keygen_cpa_spec : forall h I r, param_set I ->
  let pk := fst (fst (keygen_ind_cpa h I r)) in let sk := snd (fst (keygen_ind_cpa h I r)) in
  let seed := bytes_at r 0 32 in let s := secret_of_stream (sK I) (sMU I) (shake128 h (bytes_at r 32 32)) in
  exists A B, matrix_of_stream (sK I) (shake128 h seed) A /\
    pk_to_bytes pk = B ++ seed /\ bit_packed 10 (concat (rounded_product (sK I) A s)) B /\
    bit_packed 13 (concat s) (indcpa_sk_to_bytes sk).
Proof.
  intros h I r HI. rewrite keygen_cpa_eq. cbv zeta. cbn [fst snd]. unfold indcpa_keypair. cbn [fst snd].
  exists (gen_matrix h I (bytes_at r 0 32)), (read_mod_p (vshr (vadd_c (mat_mul (gen_matrix h I (bytes_at r 0 32)) (gen_secret h I (bytes_at r 32 32))) 4) 3)).
  pose proof (gen_secret_wf h I (bytes_at r 32 32) HI) as WS. destruct (gen_matrix_wf h I (bytes_at r 0 32)) as [LA _].
  split; [apply matrix_spec|]. split; [reflexivity|]. rewrite <- (secret_csec h I _ HI). split.
  - rewrite rnd_vec_eq. rewrite <- (rounded_eq (sK I)) by (try exact WS; try exact LA; intros; apply gen_matrix_rows; assumption).
    apply (read_p_packed (sK I)). apply rnd_vec_wf, mat_mul_wf. exact LA.
  - apply (secret_packed (sK I)). exact WS.
Qed.

(** ** C58: the KEM *)
Theorem keygen_spec : forall h I r, param_set I ->
  let sk := fst (keygen h I r) in
  sk_to_bytes sk = indcpa_sk_to_bytes (snd (fst (keygen_ind_cpa h I r)))
    ++ pk_to_bytes (fst (fst (keygen_ind_cpa h I r)))
    ++ sha3_256 h (pk_to_bytes (fst (fst (keygen_ind_cpa h I r)))) ++ bytes_at r 64 32 /\
  public_key sk = fst (fst (keygen_ind_cpa h I r)).
Proof. intros h I r HI. rewrite keygen_eq, keygen_cpa_eq. split; reflexivity. Qed.
Theorem encapsulate_spec : forall h I r pk, param_set I -> api_pk h I pk ->
  let '(ss, ct, _) := encapsulate h I r pk in
  let m := bytes_at r 0 32 in
  let kr := sha3_512 h (sha3_256 h (pk_to_bytes pk) ++ m) in
  encryption_of (sK I) (sMU I) (sRECON I) (shake128 h) (pk_to_bytes pk) m (firstn 32 kr) ct /\
  ss = sha3_256 h (sha3_256 h ct ++ skipn 32 kr).
Proof.
  intros h I r pk HI HP. unfold encapsulate, encaps_m. cbn [draw fst snd].
  split; [|reflexivity]. apply encryption_spec; [exact HI|exact HP|]. rewrite map_length, seq_length. reflexivity.
Qed.
Theorem encapsulate_cpa_spec : forall h I r pk, param_set I -> api_pk h I pk ->
  let '(ss, ct, _) := encapsulate_ind_cpa h I r pk in
  ss = bytes_at r 0 32 /\
  encryption_of (sK I) (sMU I) (sRECON I) (shake128 h) (pk_to_bytes pk) ss (bytes_at r 32 32) ct.
Proof.
  intros h I r pk HI HP. unfold encapsulate_ind_cpa. cbn [draw fst snd].
  split; [reflexivity|]. apply encryption_spec; [exact HI|exact HP|]. rewrite map_length, seq_length. reflexivity.
Qed.

(** ** The specification determines the ciphertext, and decryption's inputs always exist *)
Lemma app_inj_len : forall {A} (a b c d : list A), length a = length b -> a ++ c = b ++ d -> a = b /\ c = d.
Proof.
  induction a as [|x a IH]; intros [|y b] c d L E; cbn in *; try discriminate; [split; [reflexivity|exact E]|].
  inversion E. destruct (IH b c d) as [-> ->]; auto.
Qed.
Lemma concat_inj : forall {A} n (u v : list (list A)), Forall (fun p => length p = n) u -> Forall (fun p => length p = n) v ->
  length u = length v -> concat u = concat v -> u = v.
Proof.
  intros A n u. induction u as [|a u IH]; intros [|b v] Fu Fv L E; cbn in L; try discriminate; [reflexivity|].
  inversion Fu; inversion Fv; subst. cbn [concat] in E. apply app_inj_len in E; [|congruence]. destruct E as [-> E]. f_equal. apply IH; auto.
Qed.
Lemma matrix_unique : forall K S A A', matrix_of_stream K S A -> matrix_of_stream K S A' -> A = A'.
Proof.
  intros K S A A' (L & F & P) (L' & F' & P').
  assert (R : forall M, Forall (fun row => vec_shape K row /\ Forall (Forall (fun x => 0 <= x < 8192)) row) M ->
    Forall (fun row : list (list Z) => length row = K) M /\ Forall (fun p => length p = 256%nat) (concat M) /\ Forall (fun x => 0 <= x < 8192) (concat (concat M))).
  { intros M FM. induction FM as [|row M ((Lr & Fr) & Hr) FM (I1 & I2 & I3)]; [repeat constructor|]. cbn [concat]. rewrite concat_app.
    split; [constructor; assumption|]. split; [apply Forall_app; split; assumption|]. apply Forall_app. split; [|exact I3].
    clear - Hr. induction Hr as [|p row Hp Hr IH]; [constructor|]. cbn [concat]. apply Forall_app. split; assumption. }
  destruct (R A F) as (R1 & R2 & R3). destruct (R A' F') as (R1' & R2' & R3').
  assert (LC : length (concat A) = length (concat A')).
  { clear - R1 R1' L L'. assert (Q : forall M : list (list (list Z)), Forall (fun row => length row = K) M -> length (concat M) = (K * length M)%nat).
    { intros M FM. induction FM as [|row M Lr FM IH]; [cbn; lia|]. cbn [concat length]. rewrite app_length, IH, Lr. lia. }
    rewrite !Q by assumption. congruence. }
  apply (concat_inj K); try assumption; [congruence|]. apply (concat_inj 256); try assumption.
  apply (bit_packed_inj 13 _ _ _ P P'); try assumption. rewrite !(concat_len 256) by assumption. congruence.
Qed.
Theorem encryption_unique : forall K mu R xof pk m r ct ct',
  encryption_of K mu R xof pk m r ct -> encryption_of K mu R xof pk m r ct' -> ct = ct'.
Proof.
  intros K mu R xof pk m r ct ct' (A & b & B & H & HA & Sb & Pb & -> & PB & PH) (A' & b' & B' & H' & HA' & Sb' & Pb' & -> & PB' & PH').
  cbv zeta in *. rewrite <- (matrix_unique _ _ _ _ HA HA') in PB'. f_equal; [apply (bit_packed_unique 10 _ _ _ ltac:(lia) PB PB')|].
  eapply (bit_packed_unique (Z.to_nat R + 1)); [lia|exact PH|]. erewrite map_ext_in; [exact PH'|]. intros k Hk. apply in_seq in Hk. cbv beta.
  assert (SS : vec_shape K (secret_of_stream K mu (xof r))).
  { unfold secret_of_stream. split; [rewrite map_length, seq_length; reflexivity|]. apply Forall_map, Forall_forall. intros p _. rewrite map_length, seq_length. reflexivity. }
  assert (Q : zdot K b (secret_of_stream K mu (xof r)) k mod 1024 = zdot K b' (secret_of_stream K mu (xof r)) k mod 1024).
  { apply zdot_cong; try assumption; try lia. intros i c Hi Hc. change 1024 with (2 ^ Z.of_nat 10). eapply packed_shape_cong; eassumption. }
  assert (Q' : (512 * msg_bit m k + zdot K b (secret_of_stream K mu (xof r)) k) mod 1024 = (512 * msg_bit m k + zdot K b' (secret_of_stream K mu (xof r)) k) mod 1024)
    by (rewrite <- Zplus_mod_idemp_r, Q, Zplus_mod_idemp_r; reflexivity).
  rewrite Q'. reflexivity.
Qed.
Theorem decryption_inputs : forall h I sk ct, param_set I -> any_sk_cpa h I sk -> length ct = BYTES_CCA_DEC I -> is_bytes ct ->
  exists s b hs, vec_shape (sK I) s /\ bit_packed 13 (concat s) (indcpa_sk_to_bytes sk) /\
  vec_shape (sK I) b /\ bit_packed 10 (concat b) (firstn (320 * sK I) ct) /\
  length hs = 256%nat /\ bit_packed (Z.to_nat (sRECON I) + 1) hs (skipn (320 * sK I) ct).
Proof.
  intros h I sk ct HI HS LC BC. pose proof (any_sk_wf h I sk HI HS) as W.
  assert (LF : length (firstn (320 * sK I) ct) = (320 * sK I)%nat).
  { rewrite firstn_length, LC. unfold BYTES_CCA_DEC. rewrite (poly_bytes_K I HI). lia. }
  assert (LR : length (skipn (320 * sK I) ct) = RECONBYTES_KEM I).
  { rewrite skipn_length, LC. unfold BYTES_CCA_DEC. rewrite (poly_bytes_K I HI). lia. }
  destruct (unpack_hint_packed I _ HI LR (bytes_skipn _ _ BC)) as [LU PU].
  exists (sk_vec sk), (from_bytes_mod_p I (firstn (320 * sK I) ct)), (recon_unpack I (skipn (320 * sK I) ct)).
  split; [apply wf_shape; exact W|]. split; [apply saber_sk_vec_format; apply (wf_shape (sK I)); exact W|].
  split; [apply wf_shape, from_mod_p_wf; [lia|apply bytes_firstn; exact BC]|]. split; [apply from_p_packed; [exact HI|exact LF|apply bytes_firstn; exact BC]|].
  split; [exact LU|exact PU].
Qed.
