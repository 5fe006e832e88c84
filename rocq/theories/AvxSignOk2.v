(** * AvxSignOk2: the AVX2 build of Dilithium2 signs byte for byte as the CLEAN build. *)
From Coq Require Import ZArith List Lia Bool.
From Verif Require Import Base Bits SaberPoly SaberRing DilArith DilNtt DilNttProof DilNttEval DilNttSpec DilPoly DilPack DilCodec2 DilHint DilOps DilSample DilRound DilSign DilCorrect
  AvxMachine AvxSym AvxSymOk AvxNtt AvxPoint AvxPoly AvxBytes AvxBytesOk AvxCodecOk AvxSign AvxSample AvxSignOk.
Import ListNotations.
Open Scope Z_scope.
Local Opaque root mred invntt_avx ntt_avx pointwise_avx pointwise_acc_avx pointwise_alias_avx nttunpack_avx tau H256 poly_challenge reduce_avx add_avx sub_avx cmul_avx
  ntt invntt_tomont poly_reduce polyw1_pack polyz_pack positions OMEGA.

Lemma vec_small : forall B v, length v = 4%nat -> (Forall (small B) v <-> forall i, (i < 4)%nat -> forall p, (p < 256)%nat -> Z.abs (at_ (vat v i) p) < B).
Proof.
  intros B v L. split.
  - intros F i Hi. rewrite Forall_forall in F. apply F. apply nth_In. lia.
  - intro H. apply Forall_forall. intros a Ha. apply (In_nth _ _ []) in Ha. destruct Ha as (i & Hi & <-). exact (H i ltac:(lia)).
Qed.
Lemma nth_map2 : forall (f : Z -> Z -> Z) a b p da db d, (p < length a)%nat -> length a = length b -> nth p (map2 f a b) d = f (nth p a da) (nth p b db).
Proof.
  intros f a. induction a as [|x a IH]; intros [|y b] p da db d Hp L; cbn in *; try lia. destruct p as [|p]; [reflexivity|]. apply IH; lia.
Qed.
Lemma challenge_prefix : forall fuel X a b, firstn 32 a = firstn 32 b -> poly_challenge fuel X a = poly_challenge fuel X b.
Proof. intros fuel X a b H. Local Transparent poly_challenge. unfold poly_challenge. rewrite H. reflexivity. Qed.
Local Opaque poly_challenge.
Lemma nth_rows : forall (a b c d : polyvec) k, length a = 4%nat -> length b = 4%nat -> length c = 4%nat -> length d = 4%nat -> (k < 4)%nat ->
  nth k (combine (combine (combine a b) c) d) ([], [], [], []) = (vat a k, vat b k, vat c k, vat d k).
Proof.
  intros a b c d k La Lb Lc Ld Hk.
  assert (L1 : length (combine a b) = 4%nat) by (rewrite combine_length; lia).
  assert (L2 : length (combine (combine a b) c) = 4%nat) by (rewrite combine_length; lia).
  rewrite combine_nth by congruence. rewrite combine_nth by congruence. rewrite combine_nth by congruence. reflexivity.
Qed.
Lemma buffer_split : forall (b : bytes) n m, (n + m <= length b)%nat -> b = firstn n b ++ slice b n m ++ skipn (n + m) b.
Proof.
  intros b n m H. rewrite <- (firstn_skipn n b) at 1. f_equal. unfold slice. rewrite <- (firstn_skipn m (skipn n b)) at 1. f_equal.
  clear H. revert b. induction n as [|n IH]; intro b; [reflexivity|]. destruct b as [|x b]; [rewrite !skipn_nil; reflexivity|]. cbn [skipn plus]. apply IH.
Qed.

Section Attempt.
Variables (e : ctx) (fuel : nat) (X : xof) (mat : list polyvec) (s1 s2 t0 s1h s2h t0h : polyvec) (mu rhoprime : bytes).
Hypothesis (He : ctx_ok e) (M : matrix mat) (T1 : transformed s1 s1h) (T2 : transformed s2 s2h) (T0 : transformed t0 t0h).
Hypothesis (Lr : length rhoprime = 64%nat).
Local Notation umat := (map (map unpacked) mat).

Lemma attempt_avx : forall nonce kappa sig, nonce mod 65536 = (4 * kappa) mod 65536 -> length sig = 2420%nat ->
  match sign_attempt fuel X mat s1h s2h t0h mu rhoprime kappa with
  | CFuel => sign_attempt_avx e fuel X umat (map unpacked s1h) (map unpacked s2h) (map unpacked t0h) mu rhoprime nonce sig = CFuel
  | CUB => False
  | CRet None => exists sig', sign_attempt_avx e fuel X umat (map unpacked s1h) (map unpacked s2h) (map unpacked t0h) mu rhoprime nonce sig = CRet (sig', false) /\ length sig' = 2420%nat
  | CRet (Some s) => sign_attempt_avx e fuel X umat (map unpacked s1h) (map unpacked s2h) (map unpacked t0h) mu rhoprime nonce sig = CRet (s, true) /\ length s = 2420%nat
  end.
Proof.
  intros nonce kappa sig Hn Lsig. destruct T1 as [P1 E1], T2 as [P2 E2], T0 as [P0 E0].
  unfold sign_attempt, sign_attempt_avx. rewrite (gamma1_vec_avx_ok e X rhoprime nonce kappa He Lr Hn). cbv zeta.
  pose proof (gamma1_vec_ok X rhoprime kappa) as Y. set (y := polyvecl_uniform_gamma1 X rhoprime kappa) in *. clearbody y.
  assert (Py : vec (pol 131072) y).
  { eapply vec4_pol; [|exact Y]. unfold z_range, GAMMA1. intros x Hx. lia. }
  assert (PyQ : vec (pol Q) y) by (eapply vec_pol_le; [|exact Py]; unfold Q; lia).
  destruct (matrix_mul_ok mat y M PyQ) as (yh & w & w' & r & En & E3 & E4 & E5 & P & EV). rewrite En.
  cbn [cbind]. rewrite E3. cbn [cbind]. rewrite E4. cbn [cbind]. rewrite E5. cbn [cbind]. clear E3 E4 E5 w w'.
  destruct (vec_caddq_ok r) as (w & -> & Sw & Ew).
  { eapply vec_pol_le; [|exact P]. unfold INVB, Q; lia. }
  cbn [cbind]. rewrite (ntt_vec_avx (c_regs e) y yh (proj1 He) PyQ En).
  destruct (vec_ntt_ok y PyQ) as (yh' & En' & Pyh & Tyh). rewrite En in En'. assert (yh' = yh) as -> by (clear - En'; injection En' as ->; reflexivity). clear En' En.
  rewrite (commitment_avx e mat yh y w He M Pyh Tyh Sw).
  2:{ intros i Hi p Hp. eapply eqq_trans; [|apply EV; assumption]. apply ev_eqq. intros j Hj. apply Ew; assumption. }
  clear EV Ew P r Tyh Pyh yh.
  destruct (vec_decompose_ok w Sw) as (w1 & w0 & Ed & V1 & V0 & D). rewrite Ed. cbn [cbind].
  destruct (decompose_vec_avx w w1 w0 Sw Ed) as [-> ->]. clear Ed D.
  destruct (pack_w1_avx_ok sig w1 V1) as (sg1 & -> & L1 & F1); [lia|]. cbn [cbind]. rewrite F1.
  set (ct := H256 X 32 (mu ++ polyveck_pack_w1 w1)). assert (Lct : length ct = 32%nat) by apply H256_length.
  rewrite (patch_at sg1 [] (firstn 32 sg1) (skipn 32 sg1) ct 0); [|symmetry; apply firstn_skipn|reflexivity|rewrite firstn_length; lia].
  cbn [cbind app]. set (sg2 := ct ++ skipn 32 sg1). assert (L2 : length sg2 = 2420%nat) by (unfold sg2; rewrite app_length, skipn_length; lia).
  rewrite (challenge_prefix fuel X sg2 ct).
  2:{ unfold sg2. rewrite firstn_app, Lct, Nat.sub_diag, firstn_O, app_nil_r. reflexivity. }
  destruct (challenge_pol fuel X ct) as [->|(c & -> & Pc)]; [reflexivity|]. cbn [cbind].
  assert (PcQ : pol Q c) by (eapply pol_le; [|exact Pc]; unfold Q; lia).
  destruct (poly_ntt_ok c PcQ) as (cp & Ecp & Pcp & EVc). rewrite Ecp. cbn [cbind].
  destruct (ntt_avx_ok (c_regs e) c Q (proj1 He) (proj1 PcQ) (proj2 PcQ)) as (cp' & Ecp' & ->); [unfold Q; lia|].
  rewrite Ecp in Ecp'. assert (cp' = cp) as -> by (clear - Ecp'; injection Ecp' as ->; reflexivity). clear Ecp Ecp' Pc.
  (* every vector of the CLEAN attempt, whether it is reached or not *)
  destruct (vec_cmul_ok cp c s1 s1h Pcp EVc P1 E1) as (x1 & z1 & Ex1 & Ez1 & Pz1 & EV1). rewrite Ex1. cbn [cbind]. rewrite Ez1. cbn [cbind].
  destruct (vec_add_ok z1 y INVB 131072 Pz1 Py) as (z2 & -> & Pz2 & Az2); [unfold INVB; lia|]. cbn [cbind].
  destruct (vec_reduce_ok z2) as (z & -> & Pz & Rz).
  { eapply vec_pol_le; [|exact Pz2]. unfold INVB; lia. }
  cbn [cbind].
  destruct (vec_chknorm_ok z (GAMMA1 - BETA)) as (bz & -> & Nz).
  { eapply vec_pol_le; [|exact Pz]. unfold REDB; lia. } { unfold GAMMA1, BETA; lia. }
  rewrite <- (vec_small _ z (proj1 Pz)) in Nz. cbn [cbind].
  assert (Ly : length y = 4%nat) by apply Y. assert (Lz : length z = 4%nat) by apply Pz.
  destruct (z_rows_ok e (unpacked cp) (map unpacked s1h) y z) as [Zy Zn].
  { rewrite map_length, Lz. apply P1. } { congruence. }
  { rewrite Lz. intros i Hi. rewrite vat_map by (rewrite (proj1 P1); exact Hi).
    pose proof (cmul_avx_ok e cp (vat s1h i) c (vat s1 i) (vat z1 i) He Pcp (proj2 P1 i Hi) EVc (E1 i Hi) (EV1 i Hi)) as N.
    destruct (add_avx_at (vat y i) (cmul_avx e (unpacked cp) (unpacked (vat s1h i))) 131072 Q (proj2 Py i Hi) (near_pol _ _ N)) as [Pa Aa]; [unfold Q; lia|].
    destruct (reduce_avx_near (add_avx (vat y i) (cmul_avx e (unpacked cp) (unpacked (vat s1h i))))) as [Pr Ar].
    { eapply pol_le; [|exact Pa]. unfold Q; lia. }
    split; [exact Pr|]. split; [apply Pz; exact Hi|]. intros p Hp. eapply eqq_trans; [apply Ar; exact Hp|]. rewrite Aa by exact Hp.
    eapply eqq_trans; [|apply eqq_sym, Rz; assumption]. rewrite Az2 by assumption. rewrite Z.add_comm. apply eqq_add; [|apply eqq_refl]. apply N. exact Hp. }
  destruct bz.
  { rewrite Zn by (intro F; apply Nz in F; discriminate F). exists sg2. split; [reflexivity|exact L2]. }
  rewrite (Zy (proj1 Nz eq_refl)). pose proof (proj1 Nz eq_refl) as Fz. clear Zy Zn Nz.
  rewrite (patch_at sg2 (firstn 2336 sg2) (slice sg2 2336 80) (skipn (2336 + 80) sg2) (repeat 0 OMEGA) 2336);
    [|apply buffer_split; lia|rewrite firstn_length; lia|rewrite repeat_length, slice_length by lia; reflexivity].
  cbn [cbind]. set (pre := firstn 2336 sg2). assert (Lpre : length pre = 2336%nat) by (unfold pre; rewrite firstn_length; lia).
  set (jk := skipn (2336 + 80) sg2). assert (Lj : length jk = 4%nat) by (unfold jk; rewrite skipn_length; lia).
  assert (Fpre : firstn 32 pre = ct).
  { unfold pre. rewrite firstn_firstn_le by lia. unfold sg2. rewrite firstn_app, Lct, Nat.sub_diag, firstn_O, app_nil_r. apply firstn_all2. lia. }
  clearbody pre jk. clear sg2 L2 F1 L1 sg1.
  (* hints *)
  destruct (vec_cmul_ok cp c s2 s2h Pcp EVc P2 E2) as (x2 & h1 & Ex2 & Eh1 & Ph1 & EV2). rewrite Ex2. cbn [cbind]. rewrite Eh1. cbn [cbind].
  assert (Pw0 : vec (pol 95232) w0) by (eapply vec4_pol; [|exact V0]; unfold GAMMA2; intros x Hx; lia).
  destruct (vec_sub_ok w0 h1 95232 INVB Pw0 Ph1) as (u0 & -> & Pu0 & Au0); [unfold INVB; lia|]. cbn [cbind].
  destruct (vec_reduce_ok u0) as (u & -> & Pu & Ru).
  { eapply vec_pol_le; [|exact Pu0]. unfold INVB; lia. }
  cbn [cbind].
  destruct (vec_chknorm_ok u (GAMMA2 - BETA)) as (bu & -> & Nu).
  { eapply vec_pol_le; [|exact Pu]. unfold REDB; lia. } { unfold GAMMA2, BETA; lia. }
  rewrite <- (vec_small _ u (proj1 Pu)) in Nu. cbn [cbind].
  destruct (vec_cmul_ok cp c t0 t0h Pcp EVc P0 E0) as (x3 & h2 & Ex3 & Eh2 & Ph2 & EV3). rewrite Ex3. cbn [cbind]. rewrite Eh2. cbn [cbind].
  destruct (vec_reduce_ok h2) as (t & -> & Pt & Rt).
  { eapply vec_pol_le; [|exact Ph2]. unfold INVB; lia. }
  cbn [cbind].
  destruct (vec_chknorm_ok t GAMMA2) as (bt & -> & Nt).
  { eapply vec_pol_le; [|exact Pt]. unfold REDB; lia. } { unfold GAMMA2; lia. }
  rewrite <- (vec_small _ t (proj1 Pt)) in Nt. cbn [cbind].
  destruct (vec_add_ok u t REDB REDB Pu Pt) as (a0 & Ea0 & Pa0 & Aa0); [unfold REDB; lia|]. rewrite Ea0. cbn [cbind].
  destruct (vec_make_hint_ok a0 w1) as (h & n & Eh & Lh & Vh & Nn & Ah).
  { eapply vec_impl; [|exact Pa0]. intros a [L _]; exact L. }
  { apply vec4_at in V1. eapply vec_impl; [|exact V1]. intros a [L _]; exact L. }
  rewrite Eh.
  assert (V1' : vec (fun a => length a = 256%nat /\ forall p, (p < 256)%nat -> high_range (at_ a p)) w1) by (apply vec4_at; exact V1).
  set (rows := combine (combine (combine (map unpacked s2h) (map unpacked t0h)) w0) w1).
  assert (LA : length (map unpacked s2h) = 4%nat) by (rewrite map_length; apply P2).
  assert (LB : length (map unpacked t0h) = 4%nat) by (rewrite map_length; apply P0).
  assert (LC : length w0 = 4%nat) by apply V0. assert (LD : length w1 = 4%nat) by apply V1.
  assert (Lrows : length rows = 4%nat) by (unfold rows; rewrite !combine_length; lia).
  assert (HR : forall k, (k < length rows)%nat -> hrow e (unpacked cp) (nth k rows ([], [], [], [])) (vat u k) (vat t k) (vat h k)).
  { rewrite Lrows. intros i Hi. unfold rows. rewrite nth_rows by assumption. rewrite !vat_map by (rewrite ?(proj1 P2), ?(proj1 P0); exact Hi).
    pose proof (cmul_avx_ok e cp (vat s2h i) c (vat s2 i) (vat h1 i) He Pcp (proj2 P2 i Hi) EVc (E2 i Hi) (EV2 i Hi)) as N2.
    pose proof (cmul_avx_ok e cp (vat t0h i) c (vat t0 i) (vat h2 i) He Pcp (proj2 P0 i Hi) EVc (E0 i Hi) (EV3 i Hi)) as N0.
    unfold hrow. cbv zeta.
    destruct (sub_avx_at (vat w0 i) (cmul_avx e (unpacked cp) (unpacked (vat s2h i))) 95232 Q (proj2 Pw0 i Hi) (near_pol _ _ N2)) as [Pa Aa]; [unfold Q; lia|].
    destruct (reduce_avx_near (sub_avx (vat w0 i) (cmul_avx e (unpacked cp) (unpacked (vat s2h i))))) as [Pr Ar].
    { eapply pol_le; [|exact Pa]. unfold Q; lia. }
    destruct (reduce_avx_near (cmul_avx e (unpacked cp) (unpacked (vat t0h i)))) as [Pq Aq].
    { eapply pol_le; [|exact (near_pol _ _ N0)]. unfold Q; lia. }
    split; [exact Pr|]. split; [apply Pu; exact Hi|]. split.
    { intros p Hp. eapply eqq_trans; [apply Ar; exact Hp|]. rewrite Aa by exact Hp. eapply eqq_trans; [|apply eqq_sym, Ru; assumption].
      rewrite Au0 by assumption. apply eqq_sub; [apply eqq_refl|]. apply N2. exact Hp. }
    split; [exact Pq|]. split; [apply Pt; exact Hi|]. split.
    { intros p Hp. eapply eqq_trans; [apply Aq; exact Hp|]. eapply eqq_trans; [|apply eqq_sym, Rt; assumption]. apply N0. exact Hp. }
    destruct (proj2 V1' i Hi) as [Lw Hw]. split; [exact Lw|]. split; [intros p Hp; specialize (Hw p Hp); unfold high_range in Hw; lia|].
    destruct (add_avx_at (vat u i) (vat t i) REDB REDB (proj2 Pu i Hi) (proj2 Pt i Hi)) as [[La _] Ab]; [unfold REDB; lia|].
    assert (Lhi : length (vat h i) = 256%nat) by (apply (hint_rows_256 h Lh Vh); exact Hi).
    apply (nth_ext _ _ 0 0); [rewrite map2_length, La, Lw, Lhi; reflexivity|]. intros p Hp. rewrite Lhi in Hp.
    fold (at_ (vat h i) p). rewrite Ah by assumption. rewrite Aa0 by assumption. rewrite <- Ab by exact Hp.
    symmetry. apply (nth_map2 make_hint (add_avx (vat u i) (vat t i)) (vat w1 i) p 0 0 0); lia. }
  assert (Lu : length u = length rows) by (rewrite Lrows; apply Pu). assert (Lt : length t = length rows) by (rewrite Lrows; apply Pt).
  destruct (h_rows_ok e (unpacked cp) rows u t h 0 pre [] [] jk Lu Lt (eq_trans Lh (eq_sym Lrows)) HR Lpre) as [(G1 & G2 & G3 & G)|(G & sg' & Eg & Lg)];
    [apply Nat.le_0_l|reflexivity|congruence| |].
  - (* accepted *)
    cbn [app length] in G. rewrite Nat.sub_0_r in G. rewrite G. cbn [cbind]. cbn [length plus] in G3.
    assert (bu = false) as -> by (apply Nu; exact G1). assert (bt = false) as -> by (apply Nt; exact G2).
    destruct (Z.ltb_spec (Z.of_nat OMEGA) n) as [O|O]; [lia|].
    assert (Vz : vec4 z_range z).
    { apply vec4_at. split; [exact Lz|]. intros i Hi. split; [apply Pz; exact Hi|]. intros p Hp.
      pose proof (proj1 (vec_small _ z Lz) Fz i Hi p Hp) as B. unfold z_range, GAMMA1, BETA in *. lia. }
    destruct (unpack_pack_sig ct z h Lct Vz Lh Vh G3) as (s & Es & Ls & _). rewrite Es. cbn [cbind]. split; [|exact Ls].
    unfold pack_sig in Es. rewrite (pack_hint_ok h Lh G3) in Es. cbn [cbind] in Es. rewrite (firstn_all2 ct) in Es by lia.
    unfold pack_z_avx.
    pose proof (pack_z_rows z 0 ct [] (skipn 32 pre) (hint_bytes h) Lct) as Z. rewrite Lz in Z. cbn [app] in Z.
    assert (Eb : pre ++ map Z.of_nat (flat_map positions h) ++ repeat 0 (OMEGA - (0 + length (flat_map positions h))) ++ map Z.of_nat (totals 0 h) = ct ++ skipn 32 pre ++ hint_bytes h).
    { rewrite <- (firstn_skipn 32 pre) at 1. rewrite Fpre. unfold hint_bytes. rewrite <- !app_assoc. reflexivity. }
    rewrite Eb, Z; [|reflexivity| |rewrite skipn_length; lia].
    + cbn [cbind]. f_equal. f_equal. clear - Es. injection Es as ->. reflexivity.
    + destruct Vz as [_ Vz]. eapply Forall_impl; [|exact Vz]. intros a [La _]. apply polyz_pack_length. exact La.
  - (* rejected *)
    cbn [app length] in Eg, G, Lg. rewrite Nat.sub_0_r in Eg. rewrite Eg. cbn [cbind].
    assert (Lg' : length sg' = 2420%nat) by (rewrite Lg, Lj; reflexivity).
    destruct bu; [exists sg'; split; [reflexivity|exact Lg']|]. destruct bt; [exists sg'; split; [reflexivity|exact Lg']|].
    destruct (Z.ltb_spec (Z.of_nat OMEGA) n) as [O|O]; [exists sg'; split; [reflexivity|exact Lg']|].
    exfalso. apply G. split; [apply Nu; reflexivity|]. split; [apply Nt; reflexivity|]. cbn [plus]. lia.
Qed.
End Attempt.

Lemma nonce_step : forall nonce kappa, nonce mod 65536 = (4 * kappa) mod 65536 ->
  ((nonce + 4) mod 18446744073709551616) mod 65536 = (4 * u16 (kappa + 1)) mod 65536.
Proof.
  intros nonce kappa H. unfold u16.
  replace 18446744073709551616 with (65536 * 281474976710656) by reflexivity. rewrite Z.rem_mul_r by lia.
  rewrite (Z.mul_comm 65536 (_ mod _)), Z.mod_add by lia. rewrite Z.mod_mod by lia.
  rewrite Z.mul_mod_idemp_r by lia. rewrite Z.add_mod, H, <- Z.add_mod by lia. f_equal. ring.
Qed.
Local Opaque sign_attempt sign_attempt_avx.
Lemma loop_avx : forall e fuel X mat s1 s2 t0 s1h s2h t0h mu rhoprime, ctx_ok e -> matrix mat ->
  transformed s1 s1h -> transformed s2 s2h -> transformed t0 t0h -> length rhoprime = 64%nat ->
  forall att nonce kappa sig, nonce mod 65536 = (4 * kappa) mod 65536 -> length sig = 2420%nat ->
  sign_loop_avx att e fuel X (map (map unpacked) mat) (map unpacked s1h) (map unpacked s2h) (map unpacked t0h) mu rhoprime nonce sig =
  sign_loop att fuel X mat s1h s2h t0h mu rhoprime kappa.
Proof.
  intros e fuel X mat s1 s2 t0 s1h s2h t0h mu rp He M T1 T2 T0 Lr. induction att as [|att IH]; intros nonce kappa sig Hn Ls; [reflexivity|].
  cbn [sign_loop_avx sign_loop].
  pose proof (attempt_avx e fuel X mat s1 s2 t0 s1h s2h t0h mu rp He M T1 T2 T0 Lr nonce kappa sig Hn Ls) as A.
  destruct (sign_attempt fuel X mat s1h s2h t0h mu rp kappa) as [[s|]| |].
  - destruct A as [-> _]. reflexivity.
  - destruct A as (sg & -> & Lg). cbn [cbind]. apply IH; [apply nonce_step; exact Hn|exact Lg].
  - destruct A.
  - rewrite A. reflexivity.
Qed.
Local Opaque sign_loop sign_loop_avx.
(** For every secret key, message, SHAKE, budget, contents of the registers, of uninitialised
    memory and of the output buffer, AVX2 signing returns the bytes CLEAN signing returns, needs as
    many samples and never leaves an array. *)
Theorem avx_sign_signature : forall att e fuel X sig0 m sk, ctx_ok e -> length sig0 = 2420%nat -> length sk = 2560%nat ->
  sign_signature_avx att e fuel X sig0 m sk = sign_signature att fuel X m sk.
Proof.
  intros att e fuel X sig0 m sk He Lsig L. unfold sign_signature_avx, sign_signature.
  destruct (unpack_sk sk) as [[[[[rho tr] key] t0] s1] s2] eqn:U. cbv zeta.
  assert (V : length rho = 32%nat /\ vec4 t0_range t0 /\ vec4 eta_range s1 /\ vec4 eta_range s2).
  { unfold unpack_sk in U. apply pair_equal_spec in U. destruct U as [U <-]. apply pair_equal_spec in U. destruct U as [U <-].
    apply pair_equal_spec in U. destruct U as [U <-]. apply pair_equal_spec in U. destruct U as [U _]. apply pair_equal_spec in U. destruct U as [<- _].
    split; [apply slice_length; lia|]. split; [|split].
    - apply (vec_unpack_vec4 t0_range polyt0_unpack 416 sk 896); auto using polyt0_unpack_range, polyt0_unpack_length. lia.
    - apply (vec_unpack_vec4 eta_range polyeta_unpack 96 sk 128); auto using polyeta_unpack_range, polyeta_unpack_length. lia.
    - apply (vec_unpack_vec4 eta_range polyeta_unpack 96 sk 512); auto using polyeta_unpack_range, polyeta_unpack_length. lia. }
  destruct V as (Lrho & V0 & V1 & V2). clear U.
  rewrite matrix_expand_avx_ok by exact He. rewrite (firstn_all2 rho) by lia.
  destruct (matrix_expand_ok fuel X rho) as [->|(mat & -> & M)]; [reflexivity|]. cbn [cbind].
  assert (Q1 : vec (pol Q) s1) by (eapply vec4_pol; [|exact V1]; unfold eta_range, Q; intros; lia).
  assert (Q2 : vec (pol Q) s2) by (eapply vec4_pol; [|exact V2]; unfold eta_range, Q; intros; lia).
  assert (Q0 : vec (pol Q) t0) by (eapply vec4_pol; [|exact V0]; unfold t0_range, Q; intros; lia).
  destruct (vec_ntt_ok s1 Q1) as (s1h & F1 & T1). rewrite F1. destruct (vec_ntt_ok s2 Q2) as (s2h & F2 & T2). rewrite F2.
  destruct (vec_ntt_ok t0 Q0) as (t0h & F0 & T0). rewrite F0. cbn [cbind].
  rewrite (ntt_vec_avx (c_regs e) s1 s1h (proj1 He) Q1 F1), (ntt_vec_avx (c_regs e) s2 s2h (proj1 He) Q2 F2), (ntt_vec_avx (c_regs e) t0 t0h (proj1 He) Q0 F0).
  apply (loop_avx e fuel X mat s1 s2 t0); try assumption; [apply H256_length|reflexivity].
Qed.
Theorem avx_crypto_sign : forall att e fuel X sm0 m sk, ctx_ok e -> (2420 <= length sm0)%nat -> length sk = 2560%nat ->
  crypto_sign_avx att e fuel X sm0 m sk = crypto_sign att fuel X m sk.
Proof.
  intros att e fuel X sm0 m sk He L Lk. unfold crypto_sign_avx, crypto_sign. rewrite avx_sign_signature; [reflexivity|exact He| |exact Lk].
  rewrite firstn_length. lia.
Qed.
(** A choice of registers and of uninitialised memory. *)
Definition some_ctx : ctx := Ctx (repeat (repeat 0 8) 16) (fun i => Z.of_nat (i mod 251)).
Lemma some_ctx_ok : ctx_ok some_ctx.
Proof.
  split; [|].
  - split; [reflexivity|]. apply Forall_forall. intros r Hr. apply repeat_spec in Hr. subst r. reflexivity.
  - intro i. cbn [c_junk some_ctx]. unfold is_byte. pose proof (Nat.mod_upper_bound i 251 ltac:(lia)). lia.
Qed.
