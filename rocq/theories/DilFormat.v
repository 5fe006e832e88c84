(** * DilFormat: the byte layout of Dilithium2 public keys, secret keys and signatures. *)
From Coq Require Import ZArith List Lia Bool Sorted.
From Verif Require Import Base Bits SaberPoly SaberRing DilArith DilNtt DilPoly DilPack DilCodec DilCodec2 Format DilHint
  DilOps DilSample DilRound DilSign DilCorrect DilProps DilRing DilSpec DilSpec2.
Import ListNotations.
Open Scope Z_scope.
Local Opaque positions.

(** ** Specification *)
(** A public key: 32 seed bytes, then the four polynomials of t1, 10 bits per coefficient. *)
Definition public_key_format (pk rho : bytes) (t1 : polyvec) : Prop :=
  shaped t1 /\ every (fun i k => 0 <= co t1 i k < 1024) /\ length rho = 32%nat /\
  exists T, pk = rho ++ T /\ bit_packed 10 (concat t1) T.
(** A secret key: two 32-byte seeds, the 64-byte hash, then s1 and s2 as 2 - x in 3 bits each and
    t0 as 4096 - x in 13 bits each. *)
Definition secret_key_format (sk rho tr key : bytes) (t0 s1 s2 : polyvec) : Prop :=
  shaped t0 /\ shaped s1 /\ shaped s2 /\
  every (fun i k => -4096 < co t0 i k <= 4096 /\ -5 <= co s1 i k <= 2 /\ -5 <= co s2 i k <= 2) /\
  length rho = 32%nat /\ length key = 32%nat /\ length tr = 64%nat /\
  exists S1 S2 T0, sk = rho ++ key ++ tr ++ S1 ++ S2 ++ T0 /\
    bit_packed 3 (map (fun x => 2 - x) (concat s1)) S1 /\ bit_packed 3 (map (fun x => 2 - x) (concat s2)) S2 /\
    bit_packed 13 (map (fun x => 4096 - x) (concat t0)) T0.
(** A hint: for each polynomial the strictly ascending list of the positions of its ones, at most 80
    in all, zero padding to 80 bytes, and then the four running totals. *)
Definition hint_format (h : polyvec) (H : bytes) : Prop :=
  shaped h /\ exists p0 p1 p2 p3, let ps := [p0; p1; p2; p3] in
    (forall i, (i < 4)%nat -> StronglySorted Z.lt (nth i ps []) /\ is_bytes (nth i ps [])) /\
    every (fun i k => (co h i k = 1 /\ In (Z.of_nat k) (nth i ps [])) \/ (co h i k = 0 /\ ~ In (Z.of_nat k) (nth i ps []))) /\
    (length (concat ps) <= 80)%nat /\
    let n p := Z.of_nat (length p) in
    H = concat ps ++ repeat 0 (80 - length (concat ps)) ++ [n p0; n p0 + n p1; n p0 + n p1 + n p2; n p0 + n p1 + n p2 + n p3].
(** A signature: the 32-byte challenge hash, z as 2^17 - x in 18 bits each, the hint. *)
Definition signature_format (sig c : bytes) (z h : polyvec) : Prop :=
  shaped z /\ every (fun i k => -131072 < co z i k <= 131072) /\ length c = 32%nat /\
  exists Z0 H, sig = c ++ Z0 ++ H /\ bit_packed 18 (map (fun x => 131072 - x) (concat z)) Z0 /\ hint_format h H.

(** ** Vectors *)
Lemma vec4_every : forall P v, vec4 P v <-> shaped v /\ every (fun i k => P (co v i k)).
Proof.
  intros P v. split.
  - intro V. split; [exact (vec4_shaped P v V)|]. intros i k Hi Hk. apply vec4_at in V. destruct V as [L V].
    destruct (V i Hi) as [La F]. exact (F k Hk).
  - intros [[L S] E]. split; [exact L|]. apply Forall_forall. intros a Ha. destruct (In_nth _ _ [] Ha) as (i & Hi & <-).
    rewrite L in Hi. split; [apply S; exact Hi|]. apply Forall_forall. intros x Hx. destruct (In_nth _ _ 0 Hx) as (k & Hk & <-).
    rewrite (S i Hi) in Hk. apply (E i k Hi Hk).
Qed.
Lemma vec4_bits : forall w P (enc : Z -> Z) (f : poly -> bytes) v, vec4 P v ->
  (forall a, length a = 256%nat -> Forall P a -> bit_packed w (map enc a) (f a)) ->
  bit_packed w (map enc (concat v)) (flat_map f v).
Proof. intros w P enc f v [_ F] H. apply bit_packed_vec. eapply Forall_impl; [|exact F]. intros a [L G]. apply H; assumption. Qed.
Lemma vec4_bits_id : forall w P (f : poly -> bytes) v, vec4 P v ->
  (forall a, length a = 256%nat -> Forall P a -> bit_packed w a (f a)) -> bit_packed w (concat v) (flat_map f v).
Proof.
  intros w P f v V H. rewrite <- (map_id (concat v)). apply (vec4_bits w P (fun x => x) f v V). intros a L F. rewrite map_id. apply H; assumption.
Qed.

(** ** Public keys *)
Theorem dil_public_key_format : forall pk rho t1, length pk = 1312%nat -> is_bytes pk ->
  (unpack_pk pk = (rho, t1) <-> public_key_format pk rho t1).
Proof.
  intros pk rho t1 L B. split.
  - intro U. pose proof (unpack_pk_vec pk L) as V. pose proof (pack_unpack_pk pk L B) as E. rewrite U in V, E. cbn [fst snd] in V, E.
    assert (Lr : length rho = 32%nat).
    { unfold unpack_pk in U. apply pair_equal_spec in U. destruct U as [<- _]. apply slice_length. lia. }
    destruct (proj1 (vec4_every _ _) V) as [S R]. split; [exact S|]. split; [exact R|]. split; [exact Lr|].
    exists (flat_map polyt1_pack t1). split.
    + rewrite <- E. unfold pack_pk. rewrite (firstn_all2 rho) by lia. reflexivity.
    + apply (vec4_bits_id 10 t1_range); [exact V|exact dil_t1_format].
  - intros (S & R & Lr & T & -> & HT). assert (V : vec4 t1_range t1) by (apply vec4_every; split; [exact S|exact R]).
    assert (T = flat_map polyt1_pack t1) as ->.
    { apply (bit_packed_unique 10 (concat t1)); [lia|exact HT|]. apply (vec4_bits_id 10 t1_range); [exact V|exact dil_t1_format]. }
    rewrite <- (unpack_pack_pk rho t1 Lr V). unfold pack_pk. rewrite (firstn_all2 rho) by lia. reflexivity.
Qed.

(** ** Secret keys *)
Lemma slice_skip : forall (b : bytes) off n m, m = (off + n)%nat -> slice b off n ++ skipn m b = skipn off b.
Proof. intros b off n m ->. unfold slice. rewrite <- skipn_skipn_add. apply firstn_skipn. Qed.
Theorem pack_unpack_sk : forall sk rho tr key t0 s1 s2, length sk = 2560%nat -> is_bytes sk ->
  unpack_sk sk = (rho, tr, key, t0, s1, s2) ->
  length rho = 32%nat /\ length tr = 64%nat /\ length key = 32%nat /\ vec4 t0_range t0 /\ vec4 eta_range s1 /\ vec4 eta_range s2 /\
  pack_sk rho tr key t0 s1 s2 = sk.
Proof.
  intros sk rho tr key t0 s1 s2 L B U. unfold unpack_sk in U.
  apply pair_equal_spec in U. destruct U as [U <-]. apply pair_equal_spec in U. destruct U as [U <-].
  apply pair_equal_spec in U. destruct U as [U <-]. apply pair_equal_spec in U. destruct U as [U <-].
  apply pair_equal_spec in U. destruct U as [<- <-].
  split; [apply slice_length; lia|]. split; [apply slice_length; lia|]. split; [apply slice_length; lia|].
  split; [apply (vec_unpack_vec4 t0_range polyt0_unpack 416 sk 896); auto using polyt0_unpack_range, polyt0_unpack_length; lia|].
  split; [apply (vec_unpack_vec4 eta_range polyeta_unpack 96 sk 128); auto using polyeta_unpack_range, polyeta_unpack_length; lia|].
  split; [apply (vec_unpack_vec4 eta_range polyeta_unpack 96 sk 512); auto using polyeta_unpack_range, polyeta_unpack_length; lia|].
  unfold pack_sk.
  rewrite (vec_pack polyt0_pack polyt0_unpack 416 sk 896) by (auto using polyt0_pack_un; lia).
  rewrite (vec_pack polyeta_pack polyeta_unpack 96 sk 128) by (auto using polyeta_pack_un; lia).
  rewrite (vec_pack polyeta_pack polyeta_unpack 96 sk 512) by (auto using polyeta_pack_un; lia).
  rewrite !(firstn_all2 (slice sk _ _)) by (rewrite slice_length; lia).
  assert (E : slice sk 896 (4 * 416) = skipn 896 sk).
  { unfold slice. apply firstn_all2. rewrite skipn_length, L. lia. }
  rewrite E. rewrite (slice_skip sk 512 _ 896), (slice_skip sk 128 _ 512), (slice_skip sk 64 _ 128), (slice_skip sk 32 _ 64),
    (slice_skip sk 0 _ 32) by reflexivity. reflexivity.
Qed.
Theorem dil_secret_key_format : forall sk rho tr key t0 s1 s2, length sk = 2560%nat -> is_bytes sk ->
  (unpack_sk sk = (rho, tr, key, t0, s1, s2) <-> secret_key_format sk rho tr key t0 s1 s2).
Proof.
  intros sk rho tr key t0 s1 s2 L B. split.
  - intro U. destruct (pack_unpack_sk sk rho tr key t0 s1 s2 L B U) as (Lr & Lt & Lk & V0 & V1 & V2 & E).
    destruct (proj1 (vec4_every _ _) V0) as [S0 R0]. destruct (proj1 (vec4_every _ _) V1) as [S1 R1]. destruct (proj1 (vec4_every _ _) V2) as [S2 R2].
    split; [exact S0|]. split; [exact S1|]. split; [exact S2|].
    split. { intros i k Hi Hk. split; [apply (R0 i k Hi Hk)|]. split; [apply (R1 i k Hi Hk)|apply (R2 i k Hi Hk)]. }
    split; [exact Lr|]. split; [exact Lk|]. split; [exact Lt|].
    exists (flat_map polyeta_pack s1), (flat_map polyeta_pack s2), (flat_map polyt0_pack t0). split; [|split; [|split]].
    + rewrite <- E. unfold pack_sk. rewrite (firstn_all2 rho), (firstn_all2 key), (firstn_all2 tr) by lia. reflexivity.
    + apply (vec4_bits 3 eta_range); [exact V1|exact dil_eta_format].
    + apply (vec4_bits 3 eta_range); [exact V2|exact dil_eta_format].
    + apply (vec4_bits 13 t0_range); [exact V0|exact dil_t0_format].
  - intros (S0 & S1 & S2 & R & Lr & Lk & Lt & B1 & B2 & B0 & E & H1 & H2 & H0).
    assert (V0 : vec4 t0_range t0) by (apply vec4_every; split; [exact S0|]; intros i k Hi Hk; apply (R i k Hi Hk)).
    assert (V1 : vec4 eta_range s1) by (apply vec4_every; split; [exact S1|]; intros i k Hi Hk; apply (R i k Hi Hk)).
    assert (V2 : vec4 eta_range s2) by (apply vec4_every; split; [exact S2|]; intros i k Hi Hk; apply (R i k Hi Hk)).
    assert (B1 = flat_map polyeta_pack s1) as ->.
    { apply (bit_packed_unique 3 _ _ _ ltac:(lia) H1). apply (vec4_bits 3 eta_range); [exact V1|exact dil_eta_format]. }
    assert (B2 = flat_map polyeta_pack s2) as ->.
    { apply (bit_packed_unique 3 _ _ _ ltac:(lia) H2). apply (vec4_bits 3 eta_range); [exact V2|exact dil_eta_format]. }
    assert (B0 = flat_map polyt0_pack t0) as ->.
    { apply (bit_packed_unique 13 _ _ _ ltac:(lia) H0). apply (vec4_bits 13 t0_range); [exact V0|exact dil_t0_format]. }
    rewrite <- (unpack_pack_sk rho tr key t0 s1 s2 Lr Lt Lk V0 V1 V2). rewrite E. unfold pack_sk.
    rewrite (firstn_all2 rho), (firstn_all2 key), (firstn_all2 tr) by lia. reflexivity.
Qed.

(** ** Hints *)
Lemma incr_from_sorted : forall l x, incr_from x l = true <-> StronglySorted Z.lt (x :: l).
Proof.
  induction l as [|y l IH]; intro x; cbn [incr_from].
  - split; [|reflexivity]. intros _. repeat constructor.
  - rewrite andb_true_iff, Z.ltb_lt, IH. split.
    + intros [Hxy S]. constructor; [exact S|]. constructor; [exact Hxy|]. inversion S; subst. eapply Forall_impl; [|eassumption]. cbv beta. intros; lia.
    + intro S. inversion S as [|? ? S' F]; subst. split; [inversion F; assumption|exact S'].
Qed.
Lemma incr_sorted : forall l, incr l = true <-> StronglySorted Z.lt l.
Proof. intros [|x l]; [split; [constructor|reflexivity]|]. apply incr_from_sorted. Qed.

Definition row_of (p : list Z) (r : poly) : Prop := forall k, (k < 256)%nat ->
  (nth k r 0 = 1 /\ In (Z.of_nat k) p) \/ (nth k r 0 = 0 /\ ~ In (Z.of_nat k) p).
Lemma row_positions : forall r, length r = 256%nat -> Forall bit r -> row_of (map Z.of_nat (positions r)) r.
Proof.
  intros r L F k Hk.
  assert (Bk : bit (nth k r 0)) by (rewrite Forall_forall in F; apply F, nth_In; lia).
  assert (I : In (Z.of_nat k) (map Z.of_nat (positions r)) <-> nth k r 0 <> 0).
  { rewrite in_map_iff. split.
    - intros (j & E & H). apply Nat2Z.inj in E. subst j. apply in_positions in H. apply H.
    - intro N. exists k. split; [reflexivity|]. apply in_positions. split; assumption. }
  destruct Bk as [B|B]; [right|left]; (split; [exact B|]); rewrite I, B; [intro N; apply N; reflexivity|discriminate].
Qed.
Lemma row_marks : forall p r, length r = 256%nat -> is_bytes p -> row_of p r -> r = marks p (repeat 0 256).
Proof.
  intros p r L B H. apply (nth_ext _ _ 0 0); [rewrite marks_length, repeat_length; exact L|]. intros k Hk. rewrite L in Hk.
  assert (F : Forall (fun x => 0 <= x < Z.of_nat (length (repeat 0 256))) p).
  { rewrite repeat_length. change (Z.of_nat 256) with 256. eapply Forall_impl; [|exact B]. intros x Hx. exact Hx. }
  pose proof (at_marks_in p (repeat 0 256) k F) as E. unfold at_ in E. rewrite nth_repeat in E. rewrite E. clear E F.
  destruct (existsb (fun x => x =? Z.of_nat k) p) eqn:X.
  - apply existsb_exists in X. destruct X as (x & Hx & E). apply Z.eqb_eq in E. subst x. destruct (H k Hk) as [[G _]|[_ G]]; [exact G|contradiction].
  - destruct (H k Hk) as [[_ G]|[G _]]; [|exact G]. exfalso. rewrite <- not_true_iff_false in X. apply X. apply existsb_exists.
    exists (Z.of_nat k). split; [exact G|]. apply Z.eqb_refl.
Qed.
Theorem dil_hint_format : forall h H, length H = 84%nat -> is_bytes H -> (unpack_hint H = Some h <-> hint_format h H).
Proof.
  intros h H L B. split.
  - intro U. destruct (pack_unpack_hint H h L B U) as (Lh & Vh & N & E). unfold hint_vec in Vh.
    destruct h as [|h0 [|h1 [|h2 [|h3 [|? ?]]]]]; try discriminate Lh.
    revert E. inversion Vh as [|? ? [L0 F0] V1]; subst. inversion V1 as [|? ? [L1 F1] V2]; subst. inversion V2 as [|? ? [L2 F2] V3]; subst.
    inversion V3 as [|? ? [L3 F3] V4]; subst. clear V1 V2 V3 V4 Vh Lh. intro E.
    split. { split; [reflexivity|]. intros i Hi. destruct i as [|[|[|[|i]]]]; cbn [nth]; try assumption. lia. }
    exists (map Z.of_nat (positions h0)), (map Z.of_nat (positions h1)), (map Z.of_nat (positions h2)), (map Z.of_nat (positions h3)).
    assert (PB : forall r, is_bytes (map Z.of_nat (positions r))).
    { intro r. apply Forall_map, Forall_forall. intros j Hj. apply in_positions in Hj. unfold is_byte. lia. }
    assert (C : concat [map Z.of_nat (positions h0); map Z.of_nat (positions h1); map Z.of_nat (positions h2); map Z.of_nat (positions h3)] =
      map Z.of_nat (flat_map positions [h0; h1; h2; h3])).
    { cbn [concat flat_map]. rewrite !map_app. reflexivity. }
    cbv zeta. split; [|split; [|split]].
    + intros i Hi. destruct i as [|[|[|[|i]]]]; cbn [nth]; try (exfalso; lia); (split; [apply incr_sorted, incr_positions|apply PB]).
    + intros i k Hi Hk. unfold co. destruct i as [|[|[|[|i]]]]; cbn [nth]; try (exfalso; lia); apply row_positions; assumption.
    + rewrite C, map_length. exact N.
    + rewrite C, map_length, <- E. unfold hint_bytes. do 2 f_equal. cbn [totals map]. rewrite !map_length. rewrite !Nat2Z.inj_add. change (Z.of_nat 0) with 0. rewrite Z.add_0_l. reflexivity.
  - intros ([Lh S] & p0 & p1 & p2 & p3 & P & R & N & E). cbv zeta in *.
    destruct h as [|h0 [|h1 [|h2 [|h3 [|? ?]]]]]; try discriminate Lh.
    assert (G : forall i, (i < 4)%nat -> nth i [h0;h1;h2;h3] [] = marks (nth i [p0;p1;p2;p3] []) (repeat 0 256)).
    { intros i Hi. apply row_marks; [apply S; exact Hi|apply (P i Hi)|]. intros k Hk. apply (R i k Hi Hk). }
    assert (PP : forall i, (i < 4)%nat -> map Z.of_nat (positions (nth i [h0;h1;h2;h3] [])) = nth i [p0;p1;p2;p3] []).
    { intros i Hi. rewrite (G i Hi). destruct (P i Hi) as [P1 P2]. apply positions_marks; [apply incr_sorted; exact P1|exact P2]. }
    assert (BB : forall i, (i < 4)%nat -> Forall bit (nth i [h0;h1;h2;h3] [])).
    { intros i Hi. rewrite (G i Hi). apply marks_bits, zeros_bits. }
    pose proof (PP 0%nat ltac:(lia)) as E0. pose proof (PP 1%nat ltac:(lia)) as E1. pose proof (PP 2%nat ltac:(lia)) as E2. pose proof (PP 3%nat ltac:(lia)) as E3.
    cbn [nth] in E0, E1, E2, E3.
    assert (V : hint_vec [h0; h1; h2; h3]).
    { pose proof (S 0%nat ltac:(lia)). pose proof (S 1%nat ltac:(lia)). pose proof (S 2%nat ltac:(lia)). pose proof (S 3%nat ltac:(lia)).
      pose proof (BB 0%nat ltac:(lia)). pose proof (BB 1%nat ltac:(lia)). pose proof (BB 2%nat ltac:(lia)). pose proof (BB 3%nat ltac:(lia)).
      cbn [nth] in *. unfold hint_vec. apply Forall_forall. intros r [<-|[<-|[<-|[<-|[]]]]]; split; assumption. }
    assert (C : concat [p0; p1; p2; p3] = map Z.of_nat (flat_map positions [h0; h1; h2; h3])).
    { cbn [concat flat_map]. rewrite !map_app, E0, E1, E2, E3. reflexivity. }
    rewrite C, map_length in N, E.
    rewrite <- (unpack_pack_hint [h0; h1; h2; h3] eq_refl V N). f_equal. rewrite E. unfold hint_bytes. do 2 f_equal.
    rewrite <- E0, <- E1, <- E2, <- E3. cbn [totals map]. rewrite !map_length. rewrite !Nat2Z.inj_add. change (Z.of_nat 0) with 0. rewrite Z.add_0_l. reflexivity.
Qed.

(** ** Signatures *)
Lemma sig_parts : forall (c A H : bytes), length c = 32%nat -> length A = 2304%nat -> length (c ++ A ++ H) = 2420%nat -> length H = 84%nat.
Proof. intros c A H. rewrite !app_length. lia. Qed.
Lemma is_bytes_app_r : forall a b, is_bytes (a ++ b) -> is_bytes b.
Proof. intros a b H. unfold is_bytes in *. apply Forall_app in H. apply H. Qed.
Theorem dil_signature_format : forall sig c z h, length sig = 2420%nat -> is_bytes sig ->
  (unpack_sig sig = Some (c, z, h) <-> signature_format sig c z h).
Proof.
  intros sig c z h L B. split.
  - intro U. destruct (pack_unpack_sig sig c z h L B U) as (Lc & Vz & Lh & Vh & N & E).
    unfold pack_sig in E. rewrite (pack_hint_ok h Lh N), cbind_ret in E. rewrite (firstn_all2 c) in E by lia.
    assert (Es : sig = c ++ flat_map polyz_pack z ++ hint_bytes h) by congruence. clear E.
    destruct (proj1 (vec4_every _ _) Vz) as [Sz Rz]. split; [exact Sz|]. split; [exact Rz|]. split; [exact Lc|].
    exists (flat_map polyz_pack z), (hint_bytes h). split; [exact Es|]. split.
    + apply (vec4_bits 18 z_range); [exact Vz|exact dil_z_format].
    + apply dil_hint_format; [apply hint_bytes_length; assumption|apply hint_bytes_bytes; exact N|apply unpack_pack_hint; assumption].
  - intros (Sz & Rz & Lc & A & H & Es & HA & HH). assert (Vz : vec4 z_range z) by (apply vec4_every; split; [exact Sz|exact Rz]).
    assert (A = flat_map polyz_pack z) as ->.
    { apply (bit_packed_unique 18 _ _ _ ltac:(lia) HA). apply (vec4_bits 18 z_range); [exact Vz|exact dil_z_format]. }
    assert (LA : length (flat_map polyz_pack z) = 2304%nat) by (apply (vec_pack_length z_range polyz_pack 576); auto using polyz_pack_length).
    subst sig. pose proof (sig_parts c _ H Lc LA L) as LH.
    assert (BH : is_bytes H) by (apply is_bytes_app_r in B; apply is_bytes_app_r in B; exact B).
    apply (dil_hint_format h H LH BH) in HH. destruct (pack_unpack_hint H h LH BH HH) as (Lh & Vh & N & E).
    destruct (unpack_pack_sig c z h Lc Vz Lh Vh N) as (s & Es & Ls & Us). rewrite <- Us. f_equal.
    unfold pack_sig in Es. rewrite (pack_hint_ok h Lh N), cbind_ret in Es. rewrite (firstn_all2 c) in Es by lia. rewrite E in Es. congruence.
Qed.
(** The signer writes this format. *)
Theorem dil_pack_sig_format : forall c z h sig, length c = 32%nat -> shaped z -> every (fun i k => -131072 < co z i k <= 131072) ->
  shaped h -> every (fun i k => co h i k = 0 \/ co h i k = 1) -> ones h <= 80 ->
  (pack_sig c z h = CRet sig <-> signature_format sig c z h).
Proof.
  intros c z h sig Lc Sz Rz Sh Rh N. assert (Vz : vec4 z_range z) by (apply vec4_every; split; [exact Sz|exact Rz]).
  assert (Vh : vec4 bit h) by (apply vec4_every; split; [exact Sh|exact Rh]). destruct Vh as [Lh Vh].
  assert (Nn : (length (flat_map positions h) <= OMEGA)%nat) by (rewrite (ones_positions h Lh Vh) in N; unfold OMEGA; lia).
  destruct (unpack_pack_sig c z h Lc Vz Lh Vh Nn) as (s & Es & Ls & Us).
  assert (F : signature_format s c z h).
  { unfold pack_sig in Es. rewrite (pack_hint_ok h Lh Nn), cbind_ret in Es. rewrite (firstn_all2 c) in Es by lia.
    split; [exact Sz|]. split; [exact Rz|]. split; [exact Lc|]. exists (flat_map polyz_pack z), (hint_bytes h). split; [congruence|]. split.
    + apply (vec4_bits 18 z_range); [exact Vz|exact dil_z_format].
    + apply dil_hint_format; [apply hint_bytes_length; assumption|apply hint_bytes_bytes; exact Nn|apply unpack_pack_hint; assumption]. }
  split.
  - intro E. assert (sig = s) as -> by congruence. exact F.
  - intros (_ & _ & _ & A & H & -> & HA & HH). destruct F as (_ & _ & _ & A' & H' & E & HA' & HH').
    assert (A = A') as -> by (apply (bit_packed_unique 18 _ _ _ ltac:(lia) HA HA')).
    assert (H = H') as ->.
    { destruct HH as (S & p0 & p1 & p2 & p3 & P & R & M & ->). destruct HH' as (_ & q0 & q1 & q2 & q3 & P' & R' & M' & ->). cbv zeta in *.
      assert (EQ : forall i, (i < 4)%nat -> nth i [p0; p1; p2; p3] [] = nth i [q0; q1; q2; q3] []).
      { intros i Hi. destruct (P i Hi) as [I1 B1]. destruct (P' i Hi) as [I2 B2].
        rewrite <- (positions_marks _ (proj2 (incr_sorted _) I1) B1), <- (positions_marks _ (proj2 (incr_sorted _) I2) B2).
        rewrite <- (row_marks _ (nth i h []) (proj2 S i Hi) B1 (fun k Hk => R i k Hi Hk)).
        rewrite <- (row_marks _ (nth i h []) (proj2 S i Hi) B2 (fun k Hk => R' i k Hi Hk)). reflexivity. }
      pose proof (EQ 0%nat ltac:(lia)) as E0. pose proof (EQ 1%nat ltac:(lia)) as E1. pose proof (EQ 2%nat ltac:(lia)) as E2. pose proof (EQ 3%nat ltac:(lia)) as E3.
      cbn [nth] in E0, E1, E2, E3. rewrite E0, E1, E2, E3. reflexivity. }
    rewrite Es, E. reflexivity.
Qed.
(** What key generation writes. *)
Theorem dil_pack_pk_format : forall rho t1 pk, length rho = 32%nat -> shaped t1 -> every (fun i k => 0 <= co t1 i k < 1024) ->
  (pk = pack_pk rho t1 <-> public_key_format pk rho t1).
Proof.
  intros rho t1 pk Lr S R. assert (V : vec4 t1_range t1) by (apply vec4_every; split; [exact S|exact R]).
  assert (HT : bit_packed 10 (concat t1) (flat_map polyt1_pack t1)) by (apply (vec4_bits_id 10 t1_range); [exact V|exact dil_t1_format]).
  assert (E : pack_pk rho t1 = rho ++ flat_map polyt1_pack t1) by (unfold pack_pk; rewrite (firstn_all2 rho) by lia; reflexivity).
  split.
  - intros ->. split; [exact S|]. split; [exact R|]. split; [exact Lr|]. exists (flat_map polyt1_pack t1). split; [exact E|exact HT].
  - intros (_ & _ & _ & T & -> & H). rewrite E. f_equal. apply (bit_packed_unique 10 _ _ _ ltac:(lia) H HT).
Qed.
Theorem dil_pack_sk_format : forall rho tr key t0 s1 s2 sk, length rho = 32%nat -> length tr = 64%nat -> length key = 32%nat ->
  shaped t0 -> shaped s1 -> shaped s2 ->
  every (fun i k => -4096 < co t0 i k <= 4096 /\ -5 <= co s1 i k <= 2 /\ -5 <= co s2 i k <= 2) ->
  (sk = pack_sk rho tr key t0 s1 s2 <-> secret_key_format sk rho tr key t0 s1 s2).
Proof.
  intros rho tr key t0 s1 s2 sk Lr Lt Lk S0 S1 S2 R.
  assert (V0 : vec4 t0_range t0) by (apply vec4_every; split; [exact S0|]; intros i k Hi Hk; apply (R i k Hi Hk)).
  assert (V1 : vec4 eta_range s1) by (apply vec4_every; split; [exact S1|]; intros i k Hi Hk; apply (R i k Hi Hk)).
  assert (V2 : vec4 eta_range s2) by (apply vec4_every; split; [exact S2|]; intros i k Hi Hk; apply (R i k Hi Hk)).
  pose proof (vec4_bits 3 eta_range _ _ _ V1 dil_eta_format) as B1. pose proof (vec4_bits 3 eta_range _ _ _ V2 dil_eta_format) as B2.
  pose proof (vec4_bits 13 t0_range _ _ _ V0 dil_t0_format) as B0.
  assert (E : pack_sk rho tr key t0 s1 s2 = rho ++ key ++ tr ++ flat_map polyeta_pack s1 ++ flat_map polyeta_pack s2 ++ flat_map polyt0_pack t0).
  { unfold pack_sk. rewrite (firstn_all2 rho), (firstn_all2 key), (firstn_all2 tr) by lia. reflexivity. }
  split.
  - intros ->. repeat (split; [assumption|]). exists (flat_map polyeta_pack s1), (flat_map polyeta_pack s2), (flat_map polyt0_pack t0).
    split; [exact E|]. split; [exact B1|]. split; [exact B2|exact B0].
  - intros (_ & _ & _ & _ & _ & _ & _ & A1 & A2 & A0 & -> & H1 & H2 & H0). rewrite E.
    rewrite (bit_packed_unique 3 _ _ _ ltac:(lia) H1 B1), (bit_packed_unique 3 _ _ _ ltac:(lia) H2 B2), (bit_packed_unique 13 _ _ _ ltac:(lia) H0 B0).
    reflexivity.
Qed.
(** Key generation writes its results in these formats. *)
Theorem dil_keypair_format : forall fuel X coins pk sk, keypair_det fuel X coins = CRet (pk, sk) ->
  exists rho t1 tr key t0 s1 s2, public_key_format pk rho t1 /\ secret_key_format sk rho tr key t0 s1 s2 /\
    tr = H256 X 64 pk /\ every (fun i k => -2 <= co s1 i k <= 2 /\ -2 <= co s2 i k <= 2).
Proof.
  intros fuel X coins pk sk H. apply dil_keypair_spec in H. destruct H as (A & s1 & s2 & t1 & t0 & PA & E1 & E2 & S1 & S2 & H1 & H0 & R & T & U & Ep & U' & Es).
  cbv zeta in *. set (sb := H256 X 128 (firstn 32 coins)) in *. assert (Ls : length sb = 128%nat) by apply H256_length.
  assert (Lr : length (slice sb 0 32) = 32%nat) by (apply slice_length; lia). assert (Lk : length (slice sb 96 32) = 32%nat) by (apply slice_length; lia).
  exists (slice sb 0 32), t1, (H256 X 64 pk), (slice sb 96 32), t0, s1, s2. split; [|split; [|split; [reflexivity|exact R]]].
  - apply dil_pack_pk_format; [exact Lr|exact H1| |exact Ep]. intros i k Hi Hk. destruct (T i k Hi Hk) as (B & B0 & _). revert B B0. clear. lia.
  - apply dil_pack_sk_format; [exact Lr|apply H256_length|exact Lk|exact H0|exact S1|exact S2| |exact Es].
    intros i k Hi Hk. destruct (T i k Hi Hk) as (_ & B0 & _). destruct (R i k Hi Hk) as (B1 & B2). revert B0 B1 B2. clear. lia.
Qed.
(** So does signing. *)
Theorem dil_sign_format : forall att fuel X m sk sig, length sk = 2560%nat -> sign_signature att fuel X m sk = CRet sig ->
  exists c z h, signature_format sig c z h /\ every (fun i k => Z.abs (co z i k) < 131072 - 78) /\ ones h <= 80.
Proof.
  intros att fuel X m sk sig L H. apply (dil_sign_spec att fuel X m sk sig L) in H.
  destruct (unpack_sk sk) as [[[[[rho tr] key] t0] s1] s2]. cbv zeta in H. destruct H as (A & k & _ & _ & AT & _).
  unfold attempt_spec in AT. destruct AT as (w & w1 & w0 & c & AT). cbv zeta in AT.
  destruct AT as (_ & _ & _ & _ & _ & _ & z & u & v & h & Sz & Rz & [Sh Rh] & N & E).
  eexists _, z, h. split; [|split; [|exact N]].
  - apply dil_pack_sig_format in E; [exact E|apply H256_length|exact Sz| |exact Sh| |exact N].
    + intros i j Hi Hj. destruct (Rz i j Hi Hj) as [_ B]. revert B. clear. lia.
    + intros i j Hi Hj. destruct (Rh i j Hi Hj) as (_ & _ & _ & _ & B). rewrite B. unfold hint_bit. destruct (_ || _); auto.
  - intros i j Hi Hj. exact (proj2 (Rz i j Hi Hj)).
Qed.
(** Keys are accepted at exactly their length. *)
Lemma exact_length : forall n (b : bytes), ((if (length b =? n)%nat then Some b else None) <> None <-> length b = n) /\
  forall k, (if (length b =? n)%nat then Some b else None) = Some k -> k = b.
Proof. intros n b. destruct (Nat.eqb_spec (length b) n); repeat split; intros; congruence. Qed.
Theorem dil_key_lengths : forall b,
  (pk_from_bytes b <> None <-> length b = 1312%nat) /\ (sk_from_bytes b <> None <-> length b = 2560%nat) /\
  (forall k, pk_from_bytes b = Some k -> k = b) /\ (forall k, sk_from_bytes b = Some k -> k = b).
Proof.
  intro b. destruct (exact_length 1312 b) as [P1 P2]. destruct (exact_length 2560 b) as [S1 S2].
  split; [exact P1|]. split; [exact S1|]. split; [exact P2|exact S2].
Qed.
(** Mask sampling reads 18 bits of the output stream per coefficient. *)
Lemma firstn_map_seq : forall {A} (f : nat -> A) n m, (n <= m)%nat -> firstn n (map f (seq 0 m)) = map f (seq 0 n).
Proof.
  intros A f n m H. replace m with (n + (m - n))%nat by lia. rewrite seq_app, map_app, firstn_app, map_length, seq_length, Nat.sub_diag.
  rewrite firstn_all2 by (rewrite map_length, seq_length; lia). cbn [firstn]. apply app_nil_r.
Qed.
Theorem dil_mask_spec : forall X seed nonce a, poly_uniform_gamma1 X seed nonce = a <->
  length a = 256%nat /\ Forall (fun x => -131072 < x <= 131072) a /\
  let s := shake256 X (seed ++ [nonce mod 256; nonce / 256 mod 256]) in
  bit_packed 18 (map (fun x => 131072 - x) a) (map (fun i => s i mod 256) (seq 0 576)).
Proof.
  intros X seed nonce a. cbv zeta.
  assert (E : poly_uniform_gamma1 X seed nonce = polyz_unpack (squeeze (shake256 X (seed ++ [nonce mod 256; nonce / 256 mod 256])) 0 576)).
  { unfold poly_uniform_gamma1, stream256, nonce_bytes. f_equal. unfold squeeze. rewrite firstn_map_seq by (cbv; lia).
    unfold u8. rewrite Z.shiftr_div_pow2 by lia. reflexivity. }
  rewrite E. clear E. set (s := shake256 X (seed ++ [nonce mod 256; nonce / 256 mod 256])). clearbody s.
  change (map (fun i => s i mod 256) (seq 0 576)) with (squeeze s 0 576).
  pose proof (squeeze_length s 0 576) as L. pose proof (squeeze_bytes s 0 576) as B. revert L B. generalize (squeeze s 0 576). intros b L B.
  pose proof (dil_z_parse b L B) as HP. pose proof (polyz_unpack_length b L) as Lp. pose proof (polyz_unpack_range b) as Rp.
  split.
  - intros <-. split; [exact Lp|]. split; [exact Rp|exact HP].
  - intros (La & Ra & Ha).
    assert (M : map (fun x => 131072 - x) (polyz_unpack b) = map (fun x => 131072 - x) a).
    { apply (bit_packed_inj 18 _ _ b HP Ha); [rewrite !map_length; congruence| |].
      - apply Forall_map. eapply Forall_impl; [|exact Rp]. intros x Hx. unfold z_range, GAMMA1 in Hx. change (2 ^ Z.of_nat 18) with 262144. lia.
      - apply Forall_map. eapply Forall_impl; [|exact Ra]. intros x Hx. cbv beta in Hx. change (2 ^ Z.of_nat 18) with 262144. lia. }
    apply (f_equal (map (fun x => 131072 - x))) in M. rewrite !map_map in M.
    rewrite !(map_ext (fun x => 131072 - (131072 - x)) (fun x => x)), !map_id in M by (intro; lia). exact M.
Qed.
