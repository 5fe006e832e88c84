(** * AvxVerifyOk: what the AVX2 build's signature verification accepts. *)
From Coq Require Import ZArith List Lia Bool.
From Verif Require Import Base Bits SaberPoly SaberRing DilArith DilNtt DilNttProof DilNttEval DilNttSpec DilPoly DilPack DilCodec DilCodec2 DilHint DilOps DilSample DilRound DilSign DilCorrect
  AvxMachine AvxSym AvxSymOk AvxNtt AvxPoint AvxPoly AvxBytes AvxBytesOk AvxCodecOk AvxSign AvxSample AvxSignOk AvxSignOk2.
Import ListNotations.
Open Scope Z_scope.
Local Opaque root mred invntt_avx ntt_avx pointwise_avx pointwise_acc_avx pointwise_alias_avx nttunpack_avx tau H256 poly_challenge
  ntt invntt_tomont poly_reduce polyw1_pack polyz_pack positions OMEGA.

(** ** One row *)
Lemma at_list : forall (a : list Z), length a = 256%nat -> a = map (at_ a) (seq 0 256).
Proof.
  intros a L. apply (nth_ext _ _ 0 0); [rewrite map_length, seq_length; exact L|]. intros p Hp. rewrite L in Hp.
  fold (at_ (map (at_ a) (seq 0 256)) p). rewrite nth_map_seq by exact Hp. reflexivity.
Qed.
Lemma at_map : forall (f : Z -> Z) a p, (p < length a)%nat -> at_ (map f a) p = f (at_ a p).
Proof. intros f a p Hp. unfold at_. rewrite (nth_indep _ 0 (f 0)) by (rewrite map_length; exact Hp). apply map_nth. Qed.
Lemma at_map2 : forall (f : Z -> Z -> Z) a b p, (p < length a)%nat -> length a = length b -> at_ (map2 f a b) p = f (at_ a p) (at_ b p).
Proof. intros. apply nth_map2; assumption. Qed.
Lemma sub_reduce_unpacked : forall a b, length a = 256%nat -> length b = 256%nat ->
  reduce_avx (sub_avx (unpacked a) (unpacked b)) = unpacked (reduce_avx (sub_avx a b)).
Proof.
  intros a b La Lb. unfold reduce_avx, sub_avx.
  rewrite (at_list (map reduce_lane (map2 sub_epi32 (unpacked a) (unpacked b)))) by (rewrite map_length, map2_length, !unpacked_length; reflexivity).
  rewrite (at_list (map reduce_lane (map2 sub_epi32 a b))) by (rewrite map_length, map2_length, La, Lb; reflexivity).
  apply unpacked_seq. intros p Hp. pose proof (tau_at p Hp) as Ht.
  rewrite !at_map by (rewrite map2_length, ?unpacked_length, ?La, ?Lb; assumption).
  rewrite !at_map2 by (rewrite ?unpacked_length, ?La, ?Lb; (assumption || reflexivity)).
  rewrite !at_unpacked by exact Hp. reflexivity.
Qed.
Lemma vec_repeat : forall r, vec std r -> matrix (repeat r 4).
Proof.
  intros r V. split; [apply repeat_length|]. intros i Hi. destruct i as [|[|[|[|i]]]]; try exact V. lia.
Qed.
Lemma wrow_avx : forall e r zh z ch c t1, ctx_ok e -> vec std r -> vec (pol (9 * Q)) zh ->
  (forall j, (j < 4)%nat -> forall p, (p < 256)%nat -> eqq (at_ (vat zh j) p) (ev p (vat z j))) ->
  pol (9 * Q) ch -> (forall p, (p < 256)%nat -> eqq (at_ ch p) (ev p c)) ->
  length t1 = 256%nat -> (forall p, (p < 256)%nat -> 0 <= at_ t1 p < 1024) ->
  let R := c_regs e in
  exists w, std w /\
    (forall p, (p < 256)%nat -> eqq (ev p w) (mrow [r] z 0 p - ev p c * (ev p t1 * 8192))) /\
    caddq_avx (invntt_avx R (reduce_avx (sub_avx (pointwise_acc_avx R (map unpacked r) (map unpacked zh) (raw e 256))
      (pointwise_alias_avx R (unpacked ch) (ntt_avx R (shiftl_avx t1)))))) = w.
Proof.
  intros e r zh z ch c t1 He Vr Pz Ez Pc Ec Lt Ht R. unfold R. clear R.
  destruct (row_avx_ok e (repeat r 4) 0 zh z He (vec_repeat r Vr) ltac:(lia) Pz Ez) as (u & Eu & Hu). change (nth 0 (repeat r 4) []) with r in Eu. rewrite Eu. clear Eu.
  change (mrow (repeat r 4) z 0) with (mrow [r] z 0) in Hu.
  destruct (poly_shiftl_ok t1 Lt Ht) as (ts & Es & Ps & As). rewrite (shiftl_avx_ok _ _ Es).
  destruct (poly_ntt_ok ts Ps) as (th & Eth & Pth & Tth).
  destruct (ntt_avx_ok (c_regs e) ts Q (proj1 He) (proj1 Ps) (proj2 Ps)) as (th' & Eth' & ->); [unfold Q; lia|].
  rewrite Eth in Eth'. assert (th' = th) as -> by (clear - Eth'; injection Eth' as ->; reflexivity). clear Eth Eth'.
  rewrite pointwise_alias_avx_ok by (apply He || apply unpacked_length).
  rewrite (unpacked_seq (fun p => mred (at_ (unpacked ch) p * at_ (unpacked th) p)) (fun p => mred (at_ ch p * at_ th p))) by (intros p Hp; rewrite !at_unpacked by exact Hp; reflexivity).
  set (a := map u (seq 0 256)). set (b := map (fun p => mred (at_ ch p * at_ th p)) (seq 0 256)).
  assert (La : length a = 256%nat) by (unfold a; rewrite map_length, seq_length; reflexivity).
  assert (Lb : length b = 256%nat) by (unfold b; rewrite map_length, seq_length; reflexivity).
  assert (Aa : forall p, (p < 256)%nat -> at_ a p = u p) by (intros p Hp; apply nth_map_seq; exact Hp).
  assert (Ab : forall p, (p < 256)%nat -> at_ b p = mred (at_ ch p * at_ th p)) by (intros p Hp; apply (nth_map_seq (fun p => mred (at_ ch p * at_ th p))); exact Hp).
  assert (Hb : forall p, (p < 256)%nat -> - Q < at_ b p < Q /\ eqq (at_ b p * 4294967296) (ev p c * (ev p t1 * 8192))).
  { intros p Hp. rewrite Ab by exact Hp. destruct Pc as [_ Bc]. destruct Pth as [_ Bt]. specialize (Bc p Hp). specialize (Bt p Hp).
    destruct (mred_bound (at_ ch p * at_ th p)) as [B C].
    { assert (- (81 * Q * Q) <= at_ ch p * at_ th p <= 81 * Q * Q) by (unfold Q in *; nia). unfold Q in *. lia. }
    split; [exact B|]. eapply eqq_trans; [exact C|]. apply eqq_mul; [apply Ec; exact Hp|]. eapply eqq_trans; [apply Tth; exact Hp|].
    rewrite Z.mul_comm. apply ev_scal. intros j Hj. rewrite As by exact Hj. rewrite Z.mul_comm. apply eqq_refl. }
  clearbody a b. rewrite sub_reduce_unpacked by assumption.
  destruct (sub_avx_at a b Q Q) as [Pd Ad].
  { split; [exact La|]. intros p Hp. rewrite Aa by exact Hp. destruct (Hu p Hp). lia. }
  { split; [exact Lb|]. intros p Hp. destruct (Hb p Hp). lia. } { unfold Q; lia. }
  destruct (reduce_avx_near (sub_avx a b)) as [[Lv Bv] Av].
  { eapply pol_le; [|exact Pd]. unfold Q; lia. }
  set (v := reduce_avx (sub_avx a b)) in *. clearbody v.
  assert (Pv : pol Q v). { split; [exact Lv|]. intros p Hp. specialize (Bv p Hp). unfold REDB, Q in *. lia. }
  destruct (poly_invntt_ok v Pv) as (f & Ef & Pf & Vf).
  assert (N : near (invntt_avx (c_regs e) (unpacked v)) f).
  { rewrite (at_list v Lv) at 1. apply invntt_near; [apply He|]. intros p Hp. split; [specialize (Bv p Hp); unfold REDB, Q in *; lia|].
    apply eqq_sym. apply Vf. exact Hp. }
  destruct (poly_caddq_ok f) as (w & Ew & Lw & Hw). { eapply pol_le; [|exact Pf]. unfold INVB, Q; lia. }
  assert (Sw : std w) by (split; [exact Lw|]; intros p Hp; apply Hw; exact Hp).
  exists w. split; [exact Sw|]. split.
  - intros p Hp. eapply eqq_trans; [apply ev_eqq; intros j Hj; apply Hw; exact Hj|]. eapply eqq_trans; [apply Vf; exact Hp|].
    eapply eqq_trans; [apply eqq_mul; [apply Av; exact Hp|apply eqq_refl]|]. rewrite Ad by exact Hp. rewrite Z.mul_sub_distr_r.
    apply eqq_sub; [|apply Hb; exact Hp]. rewrite Aa by exact Hp. apply Hu. exact Hp.
  - apply near_caddq; [|exact Sw]. destruct N as [Ln Hn]. split; [exact Ln|]. intros p Hp. destruct (Hn p Hp) as [B C]. split; [exact B|].
    eapply eqq_trans; [exact C|]. apply eqq_sym. apply Hw. exact Hp.
Qed.

(** ** Hints *)
Lemma use_hint_avx_in6 : forall w h, std w -> length h = 256%nat -> Forall bit h ->
  length (use_hint_avx w h) = 256%nat /\ Forall in6 (use_hint_avx w h).
Proof.
  intros w h [L S] Lh Fh. unfold use_hint_avx.
  assert (Lm : length (map2 use_hint_lane w h) = 256%nat) by (rewrite map2_length, L, Lh; reflexivity). split; [exact Lm|].
  apply (pol_Forall in6); [exact Lm|]. intros p Hp. rewrite at_map2 by (rewrite ?L, ?Lh; (assumption || reflexivity)).
  destruct (decompose_ok (at_ w p) (S p Hp)) as (a1 & a0 & E & D).
  rewrite (use_hint_lane_ok _ _ a1 a0 (S p Hp)); [|apply (proj1 (pol_Forall bit h Lh) Fh p Hp)|exact E].
  assert (R : 0 <= a1 < 44) by (destruct D as [(A & _)|(A & _)]; lia).
  unfold in6. destruct (at_ h p =? 0); [lia|]. destruct (0 <=? a0); [destruct (Z.eqb_spec a1 43); lia|destruct (Z.eqb_spec a1 0); lia].
Qed.
Lemma unhint_row_bits : forall hint pos i h, is_bytes hint -> (pos <= OMEGA)%nat ->
  ((Z.to_nat (at_ hint (OMEGA + i)) <? pos)%nat || (OMEGA <? Z.to_nat (at_ hint (OMEGA + i)))%nat) = false ->
  unhint_inner hint pos (seq pos (Z.to_nat (at_ hint (OMEGA + i)) - pos)) (repeat 0 256) = Some h ->
  length h = 256%nat /\ Forall bit h.
Proof.
  intros hint pos i h B Hp E1 E2.
  destruct (unhint_rows_inv hint B 1 i pos [h] (Z.to_nat (at_ hint (OMEGA + i))) Hp) as (_ & V & _).
  - cbn [seq unhint_rows]. rewrite E1, E2. reflexivity.
  - unfold hint_vec in V. apply Forall_cons_iff in V. apply V.
Qed.

(** ** The rows *)
Section Rows.
Variables (e : ctx) (fuel : nat) (X : xof) (pk hint : bytes) (ch c : poly) (zh z : polyvec).
Hypothesis (He : ctx_ok e) (Bh : is_bytes hint) (Lpk : length pk = 1312%nat).
Hypothesis (Pz : vec (pol (9 * Q)) zh) (Ez : forall j, (j < 4)%nat -> forall p, (p < 256)%nat -> eqq (at_ (vat zh j) p) (ev p (vat z j))).
Hypothesis (Pc : pol (9 * Q) ch) (Ec : forall p, (p < 256)%nat -> eqq (at_ ch p) (ev p c)).
Definition arow (i : nat) : crun polyvec := mapM (fun j => poly_uniform fuel X (firstn 32 pk) (Z.shiftl (Z.of_nat i) 8 + Z.of_nat j)) (seq 0 4).
Definition trow (i : nat) : poly := polyt1_unpack (slice pk (32 + i * 320) 320).

Lemma arow_safe : forall i, safe (arow i) (vec std).
Proof.
  intro i. unfold arow. eapply safe_impl; [apply (safe_mapM _ std)|].
  - intros j _. eapply safe_impl; [apply poly_uniform_ok|]. intros a [L F]. split; [exact L|]. exact (proj1 (pol_Forall (fun x => 0 <= x < Q) a L) F).
  - intros v [L F]. rewrite seq_length in L. split; [exact L|]. intros k Hk. apply (Forall_nth' _ _ [] k F). lia.
Qed.
Lemma trow_ok : forall i, (i < 4)%nat -> length (trow i) = 256%nat /\ (forall p, (p < 256)%nat -> 0 <= at_ (trow i) p < 1024).
Proof.
  intros i Hi. assert (L : length (trow i) = 256%nat) by (apply polyt1_unpack_length; apply slice_length; lia).
  split; [exact L|]. apply (proj1 (pol_Forall (fun x => 0 <= x < 1024) _ L)). apply polyt1_unpack_range.
Qed.
Lemma verify_rows_ok : forall n i buf pos, (i + n <= 4)%nat -> length buf = 782%nat -> (pos <= OMEGA)%nat ->
  (verify_rows e fuel X pk hint (unpacked ch) (map unpacked zh) (seq i n) buf pos = CFuel /\ mapM arow (seq i n) = CFuel) \/
  (unhint_rows hint pos (seq i n) = None /\ verify_rows e fuel X pk hint (unpacked ch) (map unpacked zh) (seq i n) buf pos = CRet None) \/
  (exists mat ws hs k buf', mapM arow (seq i n) = CRet mat /\ unhint_rows hint pos (seq i n) = Some (hs, k) /\ length ws = n /\
    (forall j, (j < n)%nat -> std (vat ws j) /\ forall p, (p < 256)%nat -> eqq (ev p (vat ws j)) (mrow mat z j p - ev p c * (ev p (trow (i + j)) * 8192))) /\
    verify_rows e fuel X pk hint (unpacked ch) (map unpacked zh) (seq i n) buf pos = CRet (Some (buf', k)) /\ length buf' = 782%nat /\
    firstn (192 * (i + n)) buf' = firstn (192 * i) buf ++ flat_map polyw1_pack (map2 use_hint_avx ws hs)).
Proof.
  induction n as [|n IH]; intros i buf pos Hi Lb Hp.
  - right. right. exists [], [], [], pos, buf. cbn [seq mapM unhint_rows verify_rows map2 flat_map]. rewrite app_nil_r, Nat.add_0_r.
    repeat (split; [reflexivity|]). split; [intros j Hj; lia|]. auto.
  - cbn [seq mapM unhint_rows verify_rows]. cbv zeta. rewrite matrix_row_avx_ok by (assumption || lia). fold (arow i).
    destruct (arow_safe i) as [->|(r & -> & Vr)]; [left; split; reflexivity|]. cbn [cbind].
    destruct (trow_ok i ltac:(lia)) as [Lt Ht]. fold (trow i).
    destruct (wrow_avx e r zh z ch c (trow i) He Vr Pz Ez Pc Ec Lt Ht) as (w & Sw & Ew & Eq). cbv zeta in Eq.
    set (W := invntt_avx (c_regs e) (reduce_avx (sub_avx (pointwise_acc_avx (c_regs e) (map unpacked r) (map unpacked zh) (raw e 256))
      (pointwise_alias_avx (c_regs e) (unpacked ch) (ntt_avx (c_regs e) (shiftl_avx (trow i))))))) in *. rewrite Eq. clearbody W. clear Eq W.
    destruct ((Z.to_nat (at_ hint (OMEGA + i)) <? pos)%nat || (OMEGA <? Z.to_nat (at_ hint (OMEGA + i)))%nat) eqn:E1; [right; left; split; reflexivity|].
    unfold hint_row_avx. destruct (unhint_inner hint pos (seq pos (Z.to_nat (at_ hint (OMEGA + i)) - pos)) (repeat 0 256)) as [h|] eqn:E2; [|right; left; split; reflexivity].
    destruct (unhint_row_bits hint pos i h Bh Hp E1 E2) as [Lh Fh].
    destruct (use_hint_avx_in6 w h Sw Lh Fh) as [Lu Fu].
    destruct (polyw1_pack_avx_ok buf (192 * i) (use_hint_avx w h)) as (b & Eb & Lb' & Fb & _); [lia|exact Lu|exact Fu|].
    rewrite Eb. cbn [cbind]. apply orb_false_iff in E1. destruct E1 as [_ E1]. apply Nat.ltb_ge in E1.
    set (t := Z.to_nat (at_ hint (OMEGA + i))) in *.
    destruct (IH (Datatypes.S i) b t ltac:(lia) ltac:(lia) E1) as [[F1 F2]|[[F1 F2]|(mat & ws & hs & k & buf' & F1 & F2 & F3 & F4 & F5 & F6 & F7)]].
    + left. rewrite F1, F2. split; reflexivity.
    + right. left. rewrite F1, F2. split; reflexivity.
    + right. right. exists (r :: mat), (w :: ws), (h :: hs), k, buf'. rewrite F1, F2, F5. cbn [cbind length map2 flat_map].
      split; [reflexivity|]. split; [reflexivity|]. split; [lia|]. split.
      * intros [|j] Hj.
        { split; [exact Sw|]. rewrite Nat.add_0_r. exact Ew. }
        { replace (i + Datatypes.S j)%nat with (Datatypes.S i + j)%nat by lia. apply F4. lia. }
      * split; [reflexivity|]. split; [exact F6|].
        replace (192 * (i + Datatypes.S n))%nat with (192 * (Datatypes.S i + n))%nat by lia. rewrite F7.
        replace (192 * Datatypes.S i)%nat with (192 * i + 192)%nat by lia. rewrite Fb, <- app_assoc. reflexivity.
Qed.
End Rows.

(** ** The verifier *)
Definition valid_avx (fuel : nat) (X : xof) (sig m pk : bytes) : Prop :=
  length sig = 2420%nat /\
  exists c z h cp mat w, unpack_sig sig = Some (c, z, h) /\
    poly_challenge fuel X c = CRet cp /\ polyvec_matrix_expand fuel X (fst (unpack_pk pk)) = CRet mat /\
    recomputed mat z (snd (unpack_pk pk)) cp w /\
    c = H256 X 32 (H256 X 64 (H256 X 64 pk ++ m) ++ polyveck_pack_w1 (map2 use_hint_avx w h)).
Lemma unpack_z_avx : forall R sig, length sig = 2420%nat -> is_bytes sig ->
  mapM (fun i => do a <- polyz_unpack_avx sig (32 + 576 * i) ;; CRet (ntt_avx R a)) (seq 0 4) =
  CRet (map (ntt_avx R) (map (fun i => polyz_unpack (slice sig (32 + i * 576) 576)) (seq 0 4))).
Proof.
  intros R sig L B.
  assert (G : forall i, (i < 4)%nat -> polyz_unpack_avx sig (32 + 576 * i) = CRet (polyz_unpack (slice sig (32 + i * 576) 576))).
  { intros i Hi. rewrite polyz_unpack_avx_ok by (assumption || lia). do 3 f_equal. lia. }
  assert (F : forall l, (forall i, In i l -> (i < 4)%nat) -> mapM (fun i => do a <- polyz_unpack_avx sig (32 + 576 * i) ;; CRet (ntt_avx R a)) l =
    CRet (map (ntt_avx R) (map (fun i => polyz_unpack (slice sig (32 + i * 576) 576)) l))).
  { induction l as [|i l IH]; intro H; [reflexivity|]. cbn [mapM map]. rewrite (G i (H i (or_introl eq_refl))). cbn [cbind].
    rewrite IH by (intros j Hj; apply H; right; exact Hj). reflexivity. }
  apply F. intros i Hi. apply in_seq in Hi. lia.
Qed.
Lemma recomputed_row : forall mat z t1 c w i, recomputed mat z t1 c w -> (i < 4)%nat ->
  std (vat w i) /\ forall p, (p < 256)%nat -> eqq (ev p (vat w i)) (mrow mat z i p - ev p c * (ev p (vat t1 i) * 8192)).
Proof. intros mat z t1 c w i [[_ S] E] Hi. split; [apply S|apply E]; exact Hi. Qed.
Local Opaque verify_rows.
Theorem avx_verify_run : forall e fuel X sig m pk, ctx_ok e -> length pk = 1312%nat -> is_bytes sig ->
  verify_signature_avx e fuel X sig m pk <> CUB /\
  (verify_signature_avx e fuel X sig m pk = CRet true <-> valid_avx fuel X sig m pk).
Proof.
  intros e fuel X sig m pk He Lp Bs. unfold verify_signature_avx, valid_avx.
  destruct (Nat.eqb_spec (length sig) 2420) as [Ls|Ls]; cbn [negb].
  2:{ split; [discriminate|]. split; [discriminate|]. intros [L _]. contradiction. }
  cbv zeta. set (c := slice sig 0 32). set (z := map (fun i => polyz_unpack (slice sig (32 + i * 576) 576)) (seq 0 4)).
  assert (U : forall c' z' h', unpack_sig sig = Some (c', z', h') -> c' = c /\ z' = z /\ unpack_hint (skipn 2336 sig) = Some h').
  { intros c' z' h' U. unfold unpack_sig in U. destruct (unpack_hint (skipn 2336 sig)) as [h|]; [|discriminate U].
    apply Some_triple_inj in U. destruct U as (<- & <- & <-). auto. }
  rewrite (challenge_prefix fuel X sig c) by (unfold c, slice; cbn [skipn]; rewrite firstn_firstn_le by lia; reflexivity).
  destruct (challenge_pol fuel X c) as [Ec|(cp & Ec & Pc)]; rewrite Ec; cbn [cbind].
  { split; [discriminate|]. split; [discriminate|]. intros (_ & c' & z' & h & cp & mat & w & Us & Ec' & _). destruct (U _ _ _ Us) as (-> & _ & _). congruence. }
  rewrite unpack_z_avx by assumption. cbn [cbind]. fold z.
  assert (Vz : vec4 z_range z).
  { apply (vec_unpack_vec4 z_range polyz_unpack 576 sig 32); auto using polyz_unpack_range, polyz_unpack_length. lia. }
  assert (Pz : vec (pol Q) z) by (eapply vec4_pol; [|exact Vz]; unfold z_range, GAMMA1, Q; intros; lia).
  destruct (vec_ntt_ok z Pz) as (zh & Ezh & Pzh & Tz). rewrite (ntt_vec_avx (c_regs e) z zh (proj1 He) Pz Ezh).
  assert (PcQ : pol Q cp) by (eapply pol_le; [|exact Pc]; unfold Q; lia).
  destruct (poly_ntt_ok cp PcQ) as (ch & Ech & Pch & Tc).
  destruct (ntt_avx_ok (c_regs e) cp Q (proj1 He) (proj1 PcQ) (proj2 PcQ)) as (ch' & Ech' & ->); [unfold Q; lia|].
  rewrite Ech in Ech'. assert (ch' = ch) as -> by (clear - Ech'; injection Ech' as ->; reflexivity). clear Ech Ech'.
  assert (Bh : is_bytes (skipn 2336 sig)) by (apply Forall_forall; intros x Hx; apply (proj1 (Forall_forall _ _) Bs); rewrite <- (firstn_skipn 2336 sig); apply in_or_app; right; exact Hx).
  assert (Fpk : fst (unpack_pk pk) = firstn 32 pk) by reflexivity.
  destruct (verify_rows_ok e fuel X pk (skipn 2336 sig) ch cp zh z He Bh Lp Pzh Tz Pch Tc 4 0 (raw e 782) 0 ltac:(lia) (raw_length e 782) (Nat.le_0_l _))
    as [[E1 E2]|[[E1 E2]|(mat & ws & hs & k & buf & F1 & F2 & F3 & F4 & F5 & F6 & F7)]].
  - rewrite E1. cbn [cbind]. split; [discriminate|]. split; [discriminate|]. intros (_ & c' & z' & h & cp' & mat & w & _ & _ & Em & _).
    rewrite Fpk in Em. unfold polyvec_matrix_expand in Em. unfold arow in E2. rewrite E2 in Em. discriminate Em.
  - rewrite E2. cbn [cbind]. split; [discriminate|]. split; [discriminate|]. intros (_ & c' & z' & h & cp' & mat & w & Us & _).
    destruct (U _ _ _ Us) as (_ & _ & Uh). unfold unpack_hint in Uh. rewrite E1 in Uh. discriminate Uh.
  - rewrite F5. cbn [cbind]. destruct (forallb (fun j => at_ (skipn 2336 sig) j =? 0) (seq k (OMEGA - k))) eqn:Ez.
    2:{ split; [discriminate|]. split; [discriminate|]. intros (_ & c' & z' & h & cp' & mat' & w & Us & _).
        destruct (U _ _ _ Us) as (_ & _ & Uh). unfold unpack_hint in Uh. rewrite F2, Ez in Uh. discriminate Uh. }
    rewrite (patch_at buf [] (firstn 32 buf) (skipn 32 buf) _ 0); [|symmetry; apply firstn_skipn|reflexivity|rewrite H256_length, firstn_length, F6; reflexivity].
    cbn [cbind app]. split; [discriminate|].
    change (192 * (0 + 4))%nat with 768%nat in F7. rewrite F7. cbn [Nat.mul]. rewrite firstn_O. cbn [app].
    rewrite (firstn_all2 pk) by lia. fold (polyveck_pack_w1 (map2 use_hint_avx ws hs)).
    set (ct := H256 X 32 (H256 X 64 (H256 X 64 pk ++ m) ++ polyveck_pack_w1 (map2 use_hint_avx ws hs))).
    assert (Lct : length ct = 32%nat) by apply H256_length.
    rewrite firstn_app, Lct, Nat.sub_diag, firstn_O, app_nil_r. rewrite (firstn_all2 ct) by lia.
    assert (Uh : unpack_hint (skipn 2336 sig) = Some hs) by (unfold unpack_hint; rewrite F2, Ez; reflexivity).
    assert (Rw : recomputed mat z (snd (unpack_pk pk)) cp ws).
    { split.
      - split; [exact F3|]. intros i Hi. apply F4. exact Hi.
      - intros i Hi. destruct (F4 i Hi) as [_ G].
        unfold unpack_pk. cbn [snd]. unfold trow in G. cbn [plus] in G.
        assert (T : vat (map (fun i => polyt1_unpack (slice pk (32 + i * 320) 320)) (seq 0 4)) i = polyt1_unpack (slice pk (32 + i * 320) 320)).
        { unfold vat. rewrite (nth_indep _ [] ((fun i => polyt1_unpack (slice pk (32 + i * 320) 320)) 0%nat)) by (rewrite map_length, seq_length; exact Hi).
          rewrite (map_nth (fun i => polyt1_unpack (slice pk (32 + i * 320) 320))). rewrite seq_nth by exact Hi. reflexivity. }
        rewrite T. exact G. }
    assert (S1 : forall b, CRet b = CRet true <-> b = true) by (intro b; split; [intro G; injection G; auto|intros ->; reflexivity]).
    rewrite S1, beq_spec. split.
    + intro G. split; [exact Ls|]. exists c, z, hs, cp, mat, ws. split; [unfold unpack_sig; rewrite Uh; reflexivity|]. split; [exact Ec|].
      split; [rewrite Fpk; exact F1|]. split; [exact Rw|]. symmetry. exact G.
    + intros (_ & c' & z' & h & cp' & mat' & w & Us & Ec' & Em & Rw' & G). destruct (U _ _ _ Us) as (-> & -> & Uh').
      assert (h = hs) as -> by congruence. assert (cp' = cp) as -> by congruence. rewrite Fpk in Em. unfold polyvec_matrix_expand in Em. unfold arow in F1.
      assert (mat' = mat) as -> by congruence. rewrite (recomputed_unique _ _ _ _ _ _ Rw' Rw) in G. symmetry. exact G.
Qed.
