(** * DilSpec2: sign.c meets the specification of DilSpec. *)
From Coq Require Import ZArith List Lia Bool.
From Verif Require Import Base Bits SaberPoly Ring SaberRing DilArith DilNtt DilNttProof DilNttEval DilNttSpec
  DilPoly DilPack DilCodec DilCodec2 DilHint DilOps DilSample DilRound DilSign DilCorrect DilProps DilRing DilSpec.
Import ListNotations.
Open Scope Z_scope.
Local Opaque root positions ev negacyclic.

Lemma hint_bit_make : forall a0 a1, make_hint a0 a1 = hint_bit a0 a1.
Proof.
  intros. unfold make_hint, hint_bit, GAMMA2. change (- (95232)) with (-95232).
  destruct (Z.ltb_spec 95232 a0), (Z.ltb_spec a0 (-95232)), (Z.eqb_spec a0 (-95232)), (Z.eqb_spec a1 0),
    (Z.ltb_spec (-95232) a0), (Z.leb_spec a0 95232); cbn; try reflexivity; lia.
Qed.
Lemma ones_positions : forall h, length h = 4%nat -> hint_vec h -> ones h = Z.of_nat (length (flat_map positions h)).
Proof.
  intros h _ V. unfold ones, hint_vec in *. induction V as [|row h [L F] V IH]; [reflexivity|].
  cbn [map flat_map zlist_sum fold_right]. fold (zlist_sum (map zlist_sum h)). rewrite IH, app_length.
  fold (zlist_sum row). rewrite (sum_positions row L F). lia.
Qed.
Lemma small_unique : forall x y B, eqq x y -> Z.abs x < B -> Z.abs y <= 6283009 -> B <= 2097407 -> x = y.
Proof. intros x y B [k E] Hx Hy HB. unfold Q in E. assert (k = 0) by lia. lia. Qed.

(** The high part of the commitment of an attempt. *)
Definition commits (X : xof) (A : list polyvec) (rp : bytes) (nonce : Z) (w1 : polyvec) : Prop :=
  exists w w0, shaped w /\ shaped w1 /\ shaped w0 /\
    every (fun i k => 0 <= co w i k < 8380417 /\ cq (co w i k) (dot (nth i A []) (polyvecl_uniform_gamma1 X rp nonce) k)) /\
    every (fun i k => high_low (co w i k) (co w1 i k) (co w0 i k)).
Lemma attempt_meets : forall fuel X mat A s1 s2 t0 s1h s2h t0h mu rp nonce, matrix mat -> entries mat A ->
  shaped s1 -> shaped s2 -> shaped t0 ->
  transformed s1 s1h -> transformed s2 s2h -> transformed t0 t0h ->
  exists w1, commits X A rp nonce w1 /\
   ((poly_challenge fuel X (H256 X 32 (mu ++ polyveck_pack_w1 w1)) = CFuel /\ sign_attempt fuel X mat s1h s2h t0h mu rp nonce = CFuel) \/
    exists r, sign_attempt fuel X mat s1h s2h t0h mu rp nonce = CRet r /\ attempt_spec fuel X A s1 s2 t0 mu rp nonce r).
Proof.
  intros fuel X mat A s1 s2 t0 s1h s2h t0h mu rp nonce M EA Z1 Z2 Z0 [P1 T1] [P2 T2] [P0 T0].
  unfold sign_attempt, attempt_spec, commits.
  pose proof (gamma1_vec_ok X rp nonce) as Y. set (y := polyvecl_uniform_gamma1 X rp nonce) in *. clearbody y.
  assert (Py : vec (pol 131072) y).
  { eapply vec4_pol; [|exact Y]. unfold z_range, GAMMA1. intros x Hx. lia. }
  destruct (matrix_mul_ok mat y M) as (zh & w & w' & r & -> & E2 & E3 & E4 & P & EV).
  { eapply vec_pol_le; [|exact Py]. unfold Q; lia. }
  cbn [cbind]. rewrite E2. cbn [cbind]. rewrite E3. cbn [cbind]. rewrite E4. cbn [cbind]. clear E2 E3 E4 zh w w'.
  destruct (vec_caddq_ok r) as (w & -> & Sw & Ew).
  { eapply vec_pol_le; [|exact P]. unfold INVB, Q; lia. }
  cbn [cbind]. destruct (vec_decompose_ok w Sw) as (w1 & w0 & -> & V1 & V0 & D). cbn [cbind].
  set (ct := H256 X 32 (mu ++ polyveck_pack_w1 w1)).
  (* facts shared by all outcomes *)
  assert (Hw : every (fun i k => 0 <= co w i k < 8380417 /\ cq (co w i k) (dot (nth i A []) y k))).
  { intros i k Hi Hk. split; [apply (proj2 Sw i Hi); exact Hk|]. apply cq_eqq.
    eapply eqq_trans; [apply Ew; assumption|].
    apply (mrow_dot mat A y (vat r i) i EA Hi (vec4_shaped _ _ Y)); [|exact Hk]. intros p Hp. apply EV; assumption. }
  assert (Hd : every (fun i k => high_low (co w i k) (co w1 i k) (co w0 i k))).
  { intros i k Hi Hk. apply high_low_dec. apply D; assumption. }
  assert (Shw : shaped w) by (eapply vec_shaped; [exact Sw|]; intros a [L _]; exact L).
  pose proof (vec4_shaped _ _ V1) as Shw1. pose proof (vec4_shaped _ _ V0) as Shw0.
  exists w1. split; [exists w, w0; repeat (split; [assumption|]); assumption|]. fold ct.
  destruct (challenge_pol fuel X ct) as [Ec|(c & Ec & Pc)]; [left; split; [exact Ec|rewrite Ec; reflexivity]|right].
  rewrite Ec. cbn [cbind].
  assert (Lc : length c = 256%nat) by apply Pc.
  destruct (poly_ntt_ok c) as (cp & -> & Pcp & EVc).
  { eapply pol_le; [|exact Pc]. unfold Q; lia. }
  cbn [cbind].
  destruct (vec_cmul_ok cp c s1 s1h Pcp EVc P1 T1) as (x1 & z1 & -> & E & Pz1 & EV1). cbn [cbind]. rewrite E. cbn [cbind]. clear E x1.
  pose proof (cmul_ring c s1 z1 Lc Z1 EV1) as R1.
  destruct (vec_add_ok z1 y INVB 131072 Pz1 Py) as (z2 & -> & Pz2 & Az2); [unfold INVB; lia|]. cbn [cbind].
  destruct (vec_reduce_ok z2) as (z & -> & Pz & Rz).
  { eapply vec_pol_le; [|exact Pz2]. unfold INVB; lia. }
  cbn [cbind].
  assert (Cz : every (fun i k => eqq (co z i k) (co y i k + negacyclic 256 c (nth i s1 []) k))).
  { intros i k Hi Hk. eapply eqq_trans; [apply Rz; assumption|]. rewrite Az2 by assumption. rewrite Z.add_comm.
    apply eqq_add; [apply eqq_refl|apply R1; assumption]. }
  destruct (vec_chknorm_ok z (GAMMA1 - BETA)) as (b & -> & Nz).
  { eapply vec_pol_le; [|exact Pz]. unfold REDB; lia. } { unfold GAMMA1, BETA; lia. }
  change (GAMMA1 - BETA) with (131072 - 78) in Nz.
  cbn [cbind]. destruct b.
  { eexists; split; [reflexivity|]. exists w, w1, w0, c. cbv zeta. fold ct. repeat (split; [assumption|]). left. intro N. cut (true = false); [discriminate|].
    apply Nz. intros i Hi p Hp. destruct (N i p Hi Hp) as (x & Cx & Bx). apply cq_eqq in Cx.
    rewrite <- (small_unique x (at_ (vat z i) p) (131072 - 78)); [exact Bx| |exact Bx| |lia].
    - eapply eqq_trans; [exact Cx|]. apply eqq_sym. apply Cz; assumption.
    - pose proof (proj2 (proj2 Pz i Hi) p Hp) as G. unfold REDB in G. lia. }
  pose proof (proj1 Nz eq_refl) as Bz. clear Nz.
  destruct (vec_cmul_ok cp c s2 s2h Pcp EVc P2 T2) as (x1 & h1 & -> & E & Ph1 & EV2). cbn [cbind]. rewrite E. cbn [cbind]. clear E x1.
  pose proof (cmul_ring c s2 h1 Lc Z2 EV2) as R2.
  assert (Pw0 : vec (pol 95232) w0) by (eapply vec4_pol; [|exact V0]; unfold GAMMA2; intros x Hx; lia).
  destruct (vec_sub_ok w0 h1 95232 INVB Pw0 Ph1) as (u0 & -> & Pu0 & Au0); [unfold INVB; lia|]. cbn [cbind].
  destruct (vec_reduce_ok u0) as (u & -> & Pu & Ru).
  { eapply vec_pol_le; [|exact Pu0]. unfold INVB; lia. }
  cbn [cbind].
  assert (Cu : every (fun i k => eqq (co u i k) (co w0 i k - negacyclic 256 c (nth i s2 []) k))).
  { intros i k Hi Hk. eapply eqq_trans; [apply Ru; assumption|]. rewrite Au0 by assumption.
    apply eqq_sub; [apply eqq_refl|apply R2; assumption]. }
  destruct (vec_chknorm_ok u (GAMMA2 - BETA)) as (b & -> & Nu).
  { eapply vec_pol_le; [|exact Pu]. unfold REDB; lia. } { unfold GAMMA2, BETA; lia. }
  change (GAMMA2 - BETA) with (95232 - 78) in Nu.
  cbn [cbind]. destruct b.
  { eexists; split; [reflexivity|]. exists w, w1, w0, c. cbv zeta. fold ct. repeat (split; [assumption|]). right; left. intro N. cut (true = false); [discriminate|].
    apply Nu. intros i Hi p Hp. destruct (N i p Hi Hp) as (x & Cx & Bx). apply cq_eqq in Cx.
    rewrite <- (small_unique x (at_ (vat u i) p) (95232 - 78)); [exact Bx| |exact Bx| |lia].
    - eapply eqq_trans; [exact Cx|]. apply eqq_sym. apply Cu; assumption.
    - pose proof (proj2 (proj2 Pu i Hi) p Hp) as G. unfold REDB in G. lia. }
  pose proof (proj1 Nu eq_refl) as Bu. clear Nu.
  destruct (vec_cmul_ok cp c t0 t0h Pcp EVc P0 T0) as (x1 & h2 & -> & E & Ph2 & EV3). cbn [cbind]. rewrite E. cbn [cbind]. clear E x1.
  pose proof (cmul_ring c t0 h2 Lc Z0 EV3) as R3.
  destruct (vec_reduce_ok h2) as (h3 & -> & Ph3 & Rh3).
  { eapply vec_pol_le; [|exact Ph2]. unfold INVB; lia. }
  cbn [cbind].
  assert (Ch : every (fun i k => eqq (co h3 i k) (negacyclic 256 c (nth i t0 []) k))).
  { intros i k Hi Hk. eapply eqq_trans; [apply Rh3; assumption|]. apply R3; assumption. }
  destruct (vec_chknorm_ok h3 GAMMA2) as (b & -> & Nh).
  { eapply vec_pol_le; [|exact Ph3]. unfold REDB; lia. } { unfold GAMMA2; lia. }
  change GAMMA2 with 95232 in Nh.
  cbn [cbind]. destruct b.
  { eexists; split; [reflexivity|]. exists w, w1, w0, c. cbv zeta. fold ct. repeat (split; [assumption|]). right; right; left. intro N. cut (true = false); [discriminate|].
    apply Nh. intros i Hi p Hp. destruct (N i p Hi Hp) as (x & Cx & Bx). apply cq_eqq in Cx.
    rewrite <- (small_unique x (at_ (vat h3 i) p) 95232); [exact Bx| |exact Bx| |lia].
    - eapply eqq_trans; [exact Cx|]. apply eqq_sym. apply Ch; assumption.
    - pose proof (proj2 (proj2 Ph3 i Hi) p Hp) as G. unfold REDB in G. lia. }
  pose proof (proj1 Nh eq_refl) as Bh. clear Nh.
  destruct (vec_add_ok u h3 REDB REDB Pu Ph3) as (a0 & -> & Pa0 & Aa0); [unfold REDB; lia|]. cbn [cbind].
  destruct (vec_make_hint_ok a0 w1) as (h & n & -> & Lh & Vh & Nn & Ah).
  { eapply vec_impl; [|exact Pa0]. intros a [L _]; exact L. }
  { apply vec4_at in V1. eapply vec_impl; [|exact V1]. intros a [L _]; exact L. }
  rewrite <- (ones_positions h Lh Vh) in Nn.
  assert (Hh : shaped h /\ every (fun i k =>
      cq (co u i k) (co w0 i k - negacyclic 256 c (nth i s2 []) k) /\ Z.abs (co u i k) < 95232 - 78 /\
      cq (co h3 i k) (negacyclic 256 c (nth i t0 []) k) /\ Z.abs (co h3 i k) < 95232 /\
      co h i k = hint_bit (co u i k + co h3 i k) (co w1 i k))).
  { split; [apply shaped_vec, hint_rows_256; assumption|]. intros i k Hi Hk.
    split; [apply cq_eqq, Cu; assumption|]. split; [apply Bu; assumption|]. split; [apply cq_eqq, Ch; assumption|].
    split; [apply Bh; assumption|]. rewrite <- hint_bit_make. rewrite !co_at. rewrite Ah by assumption. rewrite Aa0 by assumption. reflexivity. }
  destruct (Z.ltb_spec (Z.of_nat OMEGA) n) as [N|N].
  { eexists; split; [reflexivity|]. exists w, w1, w0, c. cbv zeta. fold ct. repeat (split; [assumption|]). right; right; right.
    exists (co u), (co h3), h. split; [exact Hh|]. rewrite <- Nn. unfold OMEGA in N. lia. }
  assert (Ho : (length (flat_map positions h) <= OMEGA)%nat).
  { rewrite (ones_positions h Lh Vh) in Nn. unfold OMEGA in *; lia. }
  assert (Vz : vec4 (fun x => Z.abs x < GAMMA1 - BETA) z).
  { apply vec4_at. split; [apply Pz|]. intros i Hi. split; [apply Pz; exact Hi|]. intros p Hp. apply Bz; assumption. }
  assert (Lct : length ct = 32%nat) by apply H256_length.
  assert (Vz' : vec4 z_range z).
  { eapply vec4_impl; [|exact Vz]. unfold z_range, GAMMA1, BETA. intros x Hx. lia. }
  destruct (unpack_pack_sig ct z h Lct Vz' Lh Vh Ho) as (sig & Es & _ & _).
  rewrite Es. cbn [cbind]. eexists; split; [reflexivity|]. exists w, w1, w0, c. cbv zeta. fold ct. repeat (split; [assumption|]).
  exists z, (co u), (co h3), h. split; [exact (vec4_shaped _ _ Vz)|]. split.
  { intros i k Hi Hk. split; [apply cq_eqq, Cz; assumption|]. apply Bz; assumption. }
  split; [exact Hh|]. split; [|exact Es]. rewrite <- Nn. unfold OMEGA in N. lia.
Qed.

Lemma shaped_ext : forall v v', shaped v -> shaped v' -> every (fun i k => co v i k = co v' i k) -> v = v'.
Proof.
  intros v v' [L S] [L' S'] E. apply (nth_ext _ _ [] []); [congruence|]. rewrite L. intros i Hi.
  apply (nth_ext _ _ 0 0); [rewrite S, S' by exact Hi; reflexivity|]. rewrite S by exact Hi. intros k Hk. apply E; assumption.
Qed.
Lemma cq_small : forall x y t B, cq x t -> cq y t -> Z.abs x < B -> Z.abs y < B -> B <= 2097407 -> x = y.
Proof.
  intros x y t B Cx Cy Bx By HB. apply cq_eqq in Cx, Cy. apply (small_unique x y B); [|exact Bx|lia|exact HB].
  eapply eqq_trans; [exact Cx|apply eqq_sym; exact Cy].
Qed.
Lemma cq_std : forall x y t, cq x t -> cq y t -> 0 <= x < 8380417 -> 0 <= y < 8380417 -> x = y.
Proof.
  intros x y t Cx Cy Bx By. apply cq_eqq in Cx, Cy. assert (E : eqq x y) by (eapply eqq_trans; [exact Cx|apply eqq_sym; exact Cy]).
  apply eqq_mod in E. unfold Q in E. rewrite !Z.mod_small in E by assumption. exact E.
Qed.
Lemma commitment_unique : forall X A rp n w w1 w0 w' w1' w0',
  let y := polyvecl_uniform_gamma1 X rp n in
  shaped w -> shaped w1 -> shaped w0 ->
  every (fun i k => 0 <= co w i k < 8380417 /\ cq (co w i k) (dot (nth i A []) y k)) ->
  every (fun i k => high_low (co w i k) (co w1 i k) (co w0 i k)) ->
  shaped w' -> shaped w1' -> shaped w0' ->
  every (fun i k => 0 <= co w' i k < 8380417 /\ cq (co w' i k) (dot (nth i A []) y k)) ->
  every (fun i k => high_low (co w' i k) (co w1' i k) (co w0' i k)) -> w' = w /\ w1' = w1 /\ w0' = w0.
Proof.
  intros X A rp n w w1 w0 w' w1' w0' y S S1 S0 C D S' S1' S0' C' D'. clearbody y.
  assert (w' = w) as ->.
  { apply shaped_ext; [assumption|assumption|]. intros i k Hi Hk. destruct (C i k Hi Hk) as [B G]. destruct (C' i k Hi Hk) as [B' G'].
    eapply cq_std; eassumption. }
  assert (U : every (fun i k => co w1' i k = co w1 i k /\ co w0' i k = co w0 i k)).
  { intros i k Hi Hk. apply (decomposed_unique (co w i k)); [apply C; assumption|apply high_low_dec, D'; assumption|apply high_low_dec, D; assumption]. }
  split; [reflexivity|]. split; apply shaped_ext; try assumption; intros i k Hi Hk; apply U; assumption.
Qed.
(** The specification of an attempt determines its outcome. *)
Theorem attempt_functional : forall fuel X A s1 s2 t0 mu rp n r r',
  attempt_spec fuel X A s1 s2 t0 mu rp n r -> attempt_spec fuel X A s1 s2 t0 mu rp n r' -> r = r'.
Proof.
  intros fuel X A s1 s2 t0 mu rp n r r' (w & w1 & w0 & c & S & S1 & S0 & C & D & Ec & H) (w' & w1' & w0' & c' & S' & S1' & S0' & C' & D' & Ec' & H').
  destruct (commitment_unique X A rp n _ _ _ _ _ _ S S1 S0 C D S' S1' S0' C' D') as (-> & -> & ->). clear S S1 S0 C D S' S1' S0' C' D'.
  rewrite Ec in Ec'. assert (c' = c) as -> by congruence. clear Ec' Ec. cbv zeta in H, H'.
  set (y := polyvecl_uniform_gamma1 X rp n) in *. clearbody y.
  set (ct := H256 X 32 (mu ++ polyveck_pack_w1 w1)) in *. clearbody ct.
  set (cs1 := fun i k => negacyclic 256 c (nth i s1 []) k) in *.
  set (cs2 := fun i k => negacyclic 256 c (nth i s2 []) k) in *.
  set (ct0 := fun i k => negacyclic 256 c (nth i t0 []) k) in *.
  change (match r with Some sig => exists z u v h, shaped z /\
        every (fun i k => cq (co z i k) (co y i k + cs1 i k) /\ Z.abs (co z i k) < 131072 - 78) /\
        (shaped h /\ every (fun i k => cq (u i k) (co w0 i k - cs2 i k) /\ Z.abs (u i k) < 95232 - 78 /\
      cq (v i k) (ct0 i k) /\ Z.abs (v i k) < 95232 /\ co h i k = hint_bit (u i k + v i k) (co w1 i k))) /\ ones h <= 80 /\ pack_sig ct z h = CRet sig
    | None => ~ every (fun i k => exists x, cq x (co y i k + cs1 i k) /\ Z.abs x < 131072 - 78) \/
        ~ every (fun i k => exists x, cq x (co w0 i k - cs2 i k) /\ Z.abs x < 95232 - 78) \/
        ~ every (fun i k => exists x, cq x (ct0 i k) /\ Z.abs x < 95232) \/
        exists u v h, (shaped h /\ every (fun i k => cq (u i k) (co w0 i k - cs2 i k) /\ Z.abs (u i k) < 95232 - 78 /\
      cq (v i k) (ct0 i k) /\ Z.abs (v i k) < 95232 /\ co h i k = hint_bit (u i k + v i k) (co w1 i k))) /\ 80 < ones h end) in H.
  change (match r' with Some sig => exists z u v h, shaped z /\
        every (fun i k => cq (co z i k) (co y i k + cs1 i k) /\ Z.abs (co z i k) < 131072 - 78) /\
        (shaped h /\ every (fun i k => cq (u i k) (co w0 i k - cs2 i k) /\ Z.abs (u i k) < 95232 - 78 /\
      cq (v i k) (ct0 i k) /\ Z.abs (v i k) < 95232 /\ co h i k = hint_bit (u i k + v i k) (co w1 i k))) /\ ones h <= 80 /\ pack_sig ct z h = CRet sig
    | None => ~ every (fun i k => exists x, cq x (co y i k + cs1 i k) /\ Z.abs x < 131072 - 78) \/
        ~ every (fun i k => exists x, cq x (co w0 i k - cs2 i k) /\ Z.abs x < 95232 - 78) \/
        ~ every (fun i k => exists x, cq x (ct0 i k) /\ Z.abs x < 95232) \/
        exists u v h, (shaped h /\ every (fun i k => cq (u i k) (co w0 i k - cs2 i k) /\ Z.abs (u i k) < 95232 - 78 /\
      cq (v i k) (ct0 i k) /\ Z.abs (v i k) < 95232 /\ co h i k = hint_bit (u i k + v i k) (co w1 i k))) /\ 80 < ones h end) in H'.
  clearbody cs1 cs2 ct0.
  assert (HU : forall u v h u' v' h', (shaped h /\ every (fun i k => cq (u i k) (co w0 i k - cs2 i k) /\ Z.abs (u i k) < 95232 - 78 /\
      cq (v i k) (ct0 i k) /\ Z.abs (v i k) < 95232 /\ co h i k = hint_bit (u i k + v i k) (co w1 i k))) ->
     (shaped h' /\ every (fun i k => cq (u' i k) (co w0 i k - cs2 i k) /\ Z.abs (u' i k) < 95232 - 78 /\
      cq (v' i k) (ct0 i k) /\ Z.abs (v' i k) < 95232 /\ co h' i k = hint_bit (u' i k + v' i k) (co w1 i k))) -> h = h').
  { intros u v h u' v' h' [Sh E] [Sh' E']. apply shaped_ext; [assumption|assumption|]. intros i k Hi Hk.
    destruct (E i k Hi Hk) as (C1 & B1 & C2 & B2 & ->). destruct (E' i k Hi Hk) as (C1' & B1' & C2' & B2' & ->).
    rewrite (cq_small _ _ _ _ C1 C1' B1 B1'), (cq_small _ _ _ _ C2 C2' B2 B2') by lia. reflexivity. }
  assert (X1 : forall sig : bytes, (exists z u v h, shaped z /\
        every (fun i k => cq (co z i k) (co y i k + cs1 i k) /\ Z.abs (co z i k) < 131072 - 78) /\
        (shaped h /\ every (fun i k => cq (u i k) (co w0 i k - cs2 i k) /\ Z.abs (u i k) < 95232 - 78 /\
      cq (v i k) (ct0 i k) /\ Z.abs (v i k) < 95232 /\ co h i k = hint_bit (u i k + v i k) (co w1 i k))) /\ ones h <= 80 /\ pack_sig ct z h = CRet sig) ->
    (~ every (fun i k => exists x, cq x (co y i k + cs1 i k) /\ Z.abs x < 131072 - 78) \/
        ~ every (fun i k => exists x, cq x (co w0 i k - cs2 i k) /\ Z.abs x < 95232 - 78) \/
        ~ every (fun i k => exists x, cq x (ct0 i k) /\ Z.abs x < 95232) \/
        exists u v h, (shaped h /\ every (fun i k => cq (u i k) (co w0 i k - cs2 i k) /\ Z.abs (u i k) < 95232 - 78 /\
      cq (v i k) (ct0 i k) /\ Z.abs (v i k) < 95232 /\ co h i k = hint_bit (u i k + v i k) (co w1 i k))) /\ 80 < ones h) -> False).
  { intros sig (z & u & v & h & Sz & Ez & Hh & O & _) [N|[N|[N|(u' & v' & h' & Hh' & O')]]].
    - apply N. intros i k Hi Hk. exists (co z i k). apply Ez; assumption.
    - apply N. intros i k Hi Hk. exists (u i k). destruct Hh as [_ Hh]. destruct (Hh i k Hi Hk) as (? & ? & _). auto.
    - apply N. intros i k Hi Hk. exists (v i k). destruct Hh as [_ Hh]. destruct (Hh i k Hi Hk) as (_ & _ & ? & ? & _). auto.
    - rewrite (HU _ _ _ _ _ _ Hh Hh') in O. lia. }
  destruct r as [sig|], r' as [sig'|]; [|exfalso; eauto|exfalso; eauto|reflexivity]. clear X1.
  destruct H as (z & u & v & h & Sz & Ez & Hh & _ & G). destruct H' as (z' & u' & v' & h' & Sz' & Ez' & Hh' & _ & G').
  rewrite (HU _ _ _ _ _ _ Hh Hh') in G. assert (z = z') as ->; [|congruence].
  apply shaped_ext; [assumption|assumption|]. intros i k Hi Hk. destruct (Ez i k Hi Hk) as [C B]. destruct (Ez' i k Hi Hk) as [C' B'].
  apply (cq_small _ _ _ _ C C' B B'). lia.
Qed.

Lemma attempt_iff : forall fuel X mat A s1 s2 t0 s1h s2h t0h mu rp nonce r, matrix mat -> entries mat A ->
  shaped s1 -> shaped s2 -> shaped t0 ->
  transformed s1 s1h -> transformed s2 s2h -> transformed t0 t0h ->
  (sign_attempt fuel X mat s1h s2h t0h mu rp nonce = CRet r <-> attempt_spec fuel X A s1 s2 t0 mu rp nonce r).
Proof.
  intros fuel X mat A s1 s2 t0 s1h s2h t0h mu rp nonce r M EA Z1 Z2 Z0 T1 T2 T0.
  destruct (attempt_meets fuel X mat A s1 s2 t0 s1h s2h t0h mu rp nonce M EA Z1 Z2 Z0 T1 T2 T0) as (w1 & (w & w0 & S & S1 & S0 & C & D) & G).
  destruct G as [(Ec & E)|(q & E & Hq)].
  - rewrite E. split; [discriminate|]. intros (w' & w1' & w0' & c' & S' & S1' & S0' & C' & D' & Ec' & _).
    destruct (commitment_unique X A rp nonce _ _ _ _ _ _ S S1 S0 C D S' S1' S0' C' D') as (_ & -> & _). rewrite Ec in Ec'. discriminate Ec'.
  - rewrite E. split; [|intro H; f_equal; eapply attempt_functional; eassumption]. intro H. assert (q = r) as <- by congruence. exact Hq.
Qed.

Lemma mapM_defined : forall {A B} (f : A -> crun B) l, (forall a, In a l -> exists b, f a = CRet b) -> exists r, mapM f l = CRet r.
Proof.
  intros A B f. induction l as [|a l IH]; intro H; [exists []; reflexivity|]. destruct (H a (or_introl eq_refl)) as (b & E).
  destruct IH as (r & Er); [intros; apply H; right; assumption|]. exists (b :: r). cbn [mapM]. rewrite E. cbn [cbind]. rewrite Er. reflexivity.
Qed.
Lemma expand_defined : forall fuel X rho A, public_matrix fuel X rho A -> exists mat, polyvec_matrix_expand fuel X rho = CRet mat.
Proof.
  intros fuel X rho A [_ H]. unfold polyvec_matrix_expand. apply mapM_defined. intros i Hi. apply in_seq in Hi.
  apply mapM_defined. intros j Hj. apply in_seq in Hj. destruct (H i) as [_ HH]; [lia|]. destruct (HH j) as (_ & a & t & E & _); [lia|].
  exists a. rewrite Z.shiftl_mul_pow2 by lia. change (2 ^ 8) with 256. rewrite Z.mul_comm. exact E.
Qed.
(** ** Signing *)
Theorem dil_sign_spec : forall att fuel X m sk sig, length sk = 2560%nat ->
  (sign_signature att fuel X m sk = CRet sig <->
   let '(rho, tr, key, t0, s1, s2) := unpack_sk sk in
   let mu := H256 X 64 (tr ++ m) in
   let rhoprime := H256 X 64 (key ++ repeat 0 32 ++ mu) in
   exists A k, public_matrix fuel X rho A /\ (k < att)%nat /\
     attempt_spec fuel X A s1 s2 t0 mu rhoprime (Z.of_nat k) (Some sig) /\
     forall j, (j < k)%nat -> attempt_spec fuel X A s1 s2 t0 mu rhoprime (Z.of_nat j) None).
Proof.
  intros att fuel X m sk sig L. unfold sign_signature.
  destruct (unpack_sk sk) as [[[[[rho tr] key] t0] s1] s2] eqn:U.
  assert (V : vec4 t0_range t0 /\ vec4 eta_range s1 /\ vec4 eta_range s2).
  { unfold unpack_sk in U. apply pair_equal_spec in U. destruct U as [U <-]. apply pair_equal_spec in U. destruct U as [U <-].
    apply pair_equal_spec in U. destruct U as [_ <-]. split; [|split].
    - apply (vec_unpack_vec4 t0_range polyt0_unpack 416 sk 896); auto using polyt0_unpack_range, polyt0_unpack_length. lia.
    - apply (vec_unpack_vec4 eta_range polyeta_unpack 96 sk 128); auto using polyeta_unpack_range, polyeta_unpack_length. lia.
    - apply (vec_unpack_vec4 eta_range polyeta_unpack 96 sk 512); auto using polyeta_unpack_range, polyeta_unpack_length. lia. }
  clear U L sk. destruct V as (V0 & V1 & V2).
  set (mu := H256 X 64 (tr ++ m)). clearbody mu. cbv zeta. set (rp := H256 X 64 (key ++ repeat 0 32 ++ mu)). clearbody rp.
  destruct (vec_ntt_ok s1) as (s1h & -> & T1).
  { eapply vec4_pol; [|exact V1]. unfold eta_range, Q. intros; lia. }
  destruct (vec_ntt_ok s2) as (s2h & -> & T2).
  { eapply vec4_pol; [|exact V2]. unfold eta_range, Q. intros; lia. }
  destruct (vec_ntt_ok t0) as (t0h & -> & T0).
  { eapply vec4_pol; [|exact V0]. unfold t0_range, Q. intros; lia. }
  apply vec4_shaped in V0, V1, V2.
  destruct (polyvec_matrix_expand fuel X rho) as [mat| |] eqn:Em; cbn [cbind].
  - pose proof (safe_inv _ _ _ (matrix_expand_ok fuel X rho) Em) as M. rewrite loop_attempts. split.
    + intros (k & K & G & N). destruct (matrix_ring fuel X rho mat Em) as (A & PA & EA). exists A, k.
      split; [exact PA|]. split; [exact K|]. split.
      * apply (attempt_iff fuel X mat A s1 s2 t0 s1h s2h t0h); assumption.
      * intros j J. apply (attempt_iff fuel X mat A s1 s2 t0 s1h s2h t0h); try assumption. apply (N j J).
    + intros (A & k & PA & K & G & N). pose proof (public_entries fuel X rho mat A Em PA) as EA. exists k. split; [exact K|]. split.
      * rewrite Z.add_0_l. apply (attempt_iff fuel X mat A s1 s2 t0 s1h s2h t0h); assumption.
      * intros j J. rewrite Z.add_0_l. apply (attempt_iff fuel X mat A s1 s2 t0 s1h s2h t0h); try assumption. apply (N j J).
  - split; [discriminate|]. destruct (matrix_expand_ok fuel X rho) as [E|(a & E & _)]; rewrite E in Em; discriminate Em.
  - split; [discriminate|]. intros (A & k & PA & _). destruct (expand_defined fuel X rho A PA) as (mat & E). rewrite E in Em. discriminate Em.
Qed.

(** ** Key generation *)
(** The secret polynomials come from the second part of the expanded seed; the public key is the
    first part of the seed and t1, where t1 * 2^13 + t0 = A s1 + s2. *)
Definition keypair_spec (fuel : nat) (X : xof) (coins pk sk : bytes) : Prop :=
  exists A s1 s2 t1 t0, let seedbuf := H256 X 128 (firstn 32 coins) in
    let rho := slice seedbuf 0 32 in let rhoprime := slice seedbuf 32 64 in let key := slice seedbuf 96 32 in
    public_matrix fuel X rho A /\
    polyvec_uniform_eta fuel X rhoprime 0 = CRet s1 /\ polyvec_uniform_eta fuel X rhoprime 4 = CRet s2 /\
    shaped s1 /\ shaped s2 /\ shaped t1 /\ shaped t0 /\
    every (fun i k => -2 <= co s1 i k <= 2 /\ -2 <= co s2 i k <= 2) /\
    every (fun i k => 0 <= co t1 i k * 8192 + co t0 i k < 8380417 /\ -4096 < co t0 i k <= 4096 /\
      cq (co t1 i k * 8192 + co t0 i k) (dot (nth i A []) s1 k + co s2 i k)) /\
    unpack_pk pk = (rho, t1) /\ pk = pack_pk rho t1 /\
    unpack_sk sk = (rho, H256 X 64 pk, key, t0, s1, s2) /\ sk = pack_sk rho (H256 X 64 pk) key t0 s1 s2.

Lemma keypair_unique : forall fuel X coins pk sk pk' sk',
  keypair_spec fuel X coins pk sk -> keypair_spec fuel X coins pk' sk' -> pk = pk' /\ sk = sk'.
Proof.
  intros fuel X coins pk sk pk' sk' (A & s1 & s2 & t1 & t0 & PA & E1 & E2 & S1 & S2 & H1 & H0 & _ & T & _ & Ep & _ & Es)
    (A' & s1' & s2' & t1' & t0' & PA' & E1' & E2' & _ & _ & H1' & H0' & _ & T' & _ & Ep' & _ & Es').
  cbv zeta in *. set (sb := H256 X 128 (firstn 32 coins)) in *. clearbody sb.
  rewrite E1 in E1'. assert (s1' = s1) as -> by congruence. rewrite E2 in E2'. assert (s2' = s2) as -> by congruence.
  assert (A' = A) as ->.
  { destruct (expand_defined _ _ _ _ PA) as (mat & Em). pose proof (public_entries _ _ _ _ _ Em PA) as [LA EA].
    pose proof (public_entries _ _ _ _ _ Em PA') as [LA' EA'].
    apply (nth_ext _ _ [] []); [congruence|]. rewrite LA'. intros i Hi. destruct (EA i Hi) as [[Lr V] G]. destruct (EA' i Hi) as [[Lr' V'] G'].
    apply (nth_ext _ _ [] []); [congruence|]. rewrite Lr'. intros j Hj. destruct (V j Hj) as [Lj Vj]. destruct (V' j Hj) as [Lj' Vj'].
    unfold vat in Lj, Lj', Vj, Vj'. apply (nth_ext _ _ 0 0); [congruence|]. rewrite Lj'. intros k Hk.
    assert (E : eqq (at_ (nth j (nth i A' []) []) k) (at_ (nth j (nth i A []) []) k)).
    { revert k Hk. apply ev_inj. intros p Hp. eapply eqq_trans; [apply eqq_sym, (G' j Hj p Hp)|apply (G j Hj p Hp)]. }
    apply eqq_mod in E. rewrite !Z.mod_small in E by auto. exact E. }
  assert (U : every (fun i k => co t1' i k = co t1 i k /\ co t0' i k = co t0 i k)).
  { intros i k Hi Hk. destruct (T i k Hi Hk) as (B & B0 & C). destruct (T' i k Hi Hk) as (B' & B0' & C').
    pose proof (cq_std _ _ _ C C' B B') as E. revert E B0 B0'. clear. intros. lia. }
  assert (t1' = t1) as -> by (apply shaped_ext; [assumption|assumption|]; intros i k Hi Hk; apply U; assumption).
  assert (t0' = t0) as -> by (apply shaped_ext; [assumption|assumption|]; intros i k Hi Hk; apply U; assumption).
  assert (pk' = pk) as -> by (rewrite Ep, Ep'; reflexivity). split; [reflexivity|]. rewrite Es, Es'. reflexivity.
Qed.

Theorem dil_keypair_spec : forall fuel X coins pk sk,
  keypair_det fuel X coins = CRet (pk, sk) <-> keypair_spec fuel X coins pk sk.
Proof.
  intros fuel X coins.
  assert (R : forall mat s1 s2,
    polyvec_matrix_expand fuel X (slice (H256 X 128 (firstn 32 coins)) 0 32) = CRet mat ->
    polyvec_uniform_eta fuel X (slice (H256 X 128 (firstn 32 coins)) 32 64) 0 = CRet s1 ->
    polyvec_uniform_eta fuel X (slice (H256 X 128 (firstn 32 coins)) 32 64) 4 = CRet s2 ->
    exists pk sk, keypair_det fuel X coins = CRet (pk, sk) /\ keypair_spec fuel X coins pk sk).
  { intros mat s1 s2 Em E1 E2. unfold keypair_det, keypair_spec.
    set (sb := H256 X 128 (firstn 32 coins)) in *. assert (Ls : length sb = 128%nat) by apply H256_length.
    assert (Lr : length (slice sb 0 32) = 32%nat) by (apply slice_length; lia).
    assert (Lk : length (slice sb 96 32) = 32%nat) by (apply slice_length; lia).
    cbv zeta. set (rho := slice sb 0 32) in *. set (key := slice sb 96 32) in *. set (rp := slice sb 32 64) in *.
    clearbody rho key rp. clear sb Ls. rewrite Em, E1, E2. cbn [cbind].
    pose proof (safe_inv _ _ _ (matrix_expand_ok fuel X rho) Em) as M.
    pose proof (safe_inv _ _ _ (uniform_eta_vec_ok fuel X rp 0) E1) as S1.
    pose proof (safe_inv _ _ _ (uniform_eta_vec_ok fuel X rp 4) E2) as S2.
    destruct (matrix_mul_ok mat s1 M) as (zh & w & w' & r & -> & F2 & F3 & F4 & P & EV).
    { eapply vec_pol_le; [|exact S1]. unfold Q; lia. }
    cbn [cbind]. rewrite F2. cbn [cbind]. rewrite F3. cbn [cbind]. rewrite F4. cbn [cbind].
    destruct (vec_add_ok r s2 INVB 2 P S2) as (t & -> & Pt & At); [unfold INVB; lia|]. cbn [cbind].
    destruct (vec_caddq_ok t) as (t' & -> & St & Et).
    { eapply vec_pol_le; [|exact Pt]. unfold INVB, Q; lia. }
    cbn [cbind]. destruct (vec_power2round_ok t' St) as (t1 & t0 & -> & V1 & V0 & SP). cbn [cbind].
    eexists; eexists; split; [reflexivity|].
    destruct (matrix_ring fuel X rho mat Em) as (A & PA & EA). exists A, s1, s2, t1, t0.
    pose proof (small_range _ S1) as Q1. pose proof (small_range _ S2) as Q2.
    pose proof (vec4_shaped _ _ Q1) as Z1. pose proof (vec4_shaped _ _ Q2) as Z2.
    pose proof (vec4_shaped _ _ V1) as W1. pose proof (vec4_shaped _ _ V0) as W0.
    cbv zeta. repeat (split; [solve [assumption | reflexivity]|]). split.
    { intros i k Hi Hk. apply vec4_at in Q1, Q2. split; [apply Q1; assumption|apply Q2; assumption]. }
    split.
    { intros i k Hi Hk. rewrite !co_at. rewrite <- SP by assumption. split; [apply (proj2 St i Hi); exact Hk|].
      split; [apply vec4_at in V0; apply V0; assumption|]. apply cq_eqq.
      eapply eqq_trans; [apply Et; assumption|]. rewrite At by assumption. apply eqq_add; [|apply eqq_refl].
      apply (mrow_dot mat A s1 (vat r i) i EA Hi Z1); [|exact Hk]. intros p Hp. apply EV; assumption. }
    split; [apply unpack_pack_pk; assumption|]. split; [reflexivity|]. split; [|reflexivity].
    apply unpack_pack_sk; auto using H256_length.
    - eapply vec4_impl; [|exact Q1]. unfold eta_range. intros; lia.
    - eapply vec4_impl; [|exact Q2]. unfold eta_range. intros; lia. }
  intros pk sk. split.
  - intro H. destruct (safe_inv _ _ _ (keypair_ok fuel X coins) H) as (rho & key & mat & t1 & t0 & s1 & s2 & (-> & -> & E1 & E2) & _ & _ & Em & _).
    destruct (R mat s1 s2 Em E1 E2) as (pk' & sk' & H' & K). rewrite H in H'. assert (pk' = pk) as <- by congruence.
    assert (sk' = sk) as <- by congruence. exact K.
  - intro K. pose proof K as (A & s1 & s2 & t1 & t0 & PA & E1 & E2 & _). cbv zeta in PA, E1, E2.
    destruct (expand_defined _ _ _ _ PA) as (mat & Em). destruct (R mat s1 s2 Em E1 E2) as (pk' & sk' & H' & K').
    rewrite H'. destruct (keypair_unique _ _ _ _ _ _ _ K K') as [-> ->]. reflexivity.
Qed.

(** ** Verification *)
Lemma use_hint_repaired : forall a h v, 0 <= a < Q -> (use_hint a h = CRet v <-> repaired a h v).
Proof.
  intros a h v Ha. unfold use_hint, repaired. destruct (decompose_ok a Ha) as (a1 & a0 & -> & D). cbn [cbind].
  assert (R : 0 <= a1 < 44) by (unfold decomposed in D; lia).
  assert (V : (if h =? 0 then CRet a1 else if 0 <? a0 then (if a1 =? 43 then CRet 0 else CRet (a1 + 1))
    else (if a1 =? 0 then CRet 43 else CRet (a1 - 1))) =
    CRet (if h =? 0 then a1 else if 0 <? a0 then (a1 + 1) mod 44 else (a1 - 1) mod 44)).
  { destruct (h =? 0); [reflexivity|]. destruct (0 <? a0).
    - destruct (Z.eqb_spec a1 43) as [->|N]; [reflexivity|]. rewrite Z.mod_small by lia. reflexivity.
    - destruct (Z.eqb_spec a1 0) as [->|N]; [reflexivity|]. rewrite Z.mod_small by lia. reflexivity. }
  rewrite V. split.
  - intro E. exists a1, a0. split; [apply high_low_dec; exact D|]. congruence.
  - intros (r1 & r0 & D' & ->). apply high_low_dec in D'. destruct (decomposed_unique a _ _ _ _ Ha D D') as [-> ->]. reflexivity.
Qed.
Lemma use_hint_vec : forall w h w1, vec std w -> vec (fun a => length a = 256%nat) h ->
  (polyveck_use_hint w h = CRet w1 <-> shaped w1 /\ every (fun i k => repaired (co w i k) (co h i k) (co w1 i k))).
Proof.
  intros w h w1 Sw Sh.
  assert (G : forall w1, shaped w1 -> every (fun i k => repaired (co w i k) (co h i k) (co w1 i k)) -> polyveck_use_hint w h = CRet w1).
  { intros v Sv E. apply vec_use_hint_eq; [exact Sw|exact Sh|apply shaped_vec; exact Sv|]. intros i Hi p Hp.
    apply use_hint_repaired; [apply (proj2 Sw i Hi); exact Hp|]. apply E; assumption. }
  split; [|intros [S E]; apply G; assumption]. intro H.
  destruct (list4 (fun i r => length r = 256%nat /\ forall p, (p < 256)%nat -> repaired (at_ (vat w i) p) (at_ (vat h i) p) (at_ r p)) [] w (proj1 Sw)) as (v & Lv & Hv).
  { intros i Hi. exists (map (fun p => match use_hint (at_ (vat w i) p) (at_ (vat h i) p) with CRet x => x | _ => 0 end) (seq 0 256)).
    split; [rewrite map_length, seq_length; reflexivity|]. intros p Hp.
    rewrite (nth_map_seq (fun p => match use_hint (at_ (vat w i) p) (at_ (vat h i) p) with CRet x => x | _ => 0 end)) by exact Hp.
    assert (B : 0 <= at_ (vat w i) p < Q) by (apply (proj2 Sw i Hi); exact Hp).
    apply use_hint_repaired; [exact B|]. destruct (use_hint_ok (at_ (vat w i) p) (at_ (vat h i) p) B) as (r & -> & _). reflexivity. }
  assert (Sv : shaped v) by (split; [exact Lv|]; intros i Hi; apply Hv; exact Hi).
  assert (Ev : every (fun i k => repaired (co w i k) (co h i k) (co v i k))) by (intros i k Hi Hk; apply Hv; assumption).
  rewrite (G v Sv Ev) in H. assert (w1 = v) as -> by congruence. split; assumption.
Qed.

Lemma recomputed_ring : forall fuel X rho mat A z t1 c w, polyvec_matrix_expand fuel X rho = CRet mat -> entries mat A ->
  shaped z -> shaped t1 -> length c = 256%nat ->
  (recomputed mat z t1 c w <-> shaped w /\ every (fun i k => 0 <= co w i k < 8380417 /\
      cq (co w i k) (dot (nth i A []) z k - negacyclic 256 c (nth i t1 []) k * 8192))).
Proof.
  intros fuel X rho mat A z t1 c w Em EA Sz St Lc. unfold recomputed.
  assert (D : forall i, (i < 4)%nat -> exists d, length d = 256%nat /\
    (forall k, (k < 256)%nat -> eqq (at_ d k) (dot (nth i A []) z k - negacyclic 256 c (nth i t1 []) k * 8192)) /\
    (forall p, (p < 256)%nat -> eqq (ev p d) (mrow mat z i p - ev p c * (ev p (vat t1 i) * 8192)))).
  { intros i Hi. destruct EA as [LA HA]. destruct (HA i Hi) as [VA EA].
    destruct (ring_row_exists mat A z i (conj LA HA) Hi Sz) as (a & La & Ea & Va).
    exists (map (fun k => at_ a k - at_ (rmul c (vat t1 i)) k * 8192) (seq 0 256)).
    set (b := rmul c (vat t1 i)) in *.
    assert (AT : forall k, (k < 256)%nat -> at_ (map (fun k => at_ a k - at_ b k * 8192) (seq 0 256)) k = at_ a k - at_ b k * 8192).
    { intros k Hk. apply (nth_map_seq (fun k => at_ a k - at_ b k * 8192)). exact Hk. }
    split; [rewrite map_length, seq_length; reflexivity|].
    set (d := map (fun k => at_ a k - at_ b k * 8192) (seq 0 256)) in *. clearbody d. split.
    - intros k Hk. rewrite AT by exact Hk. apply eqq_sub; [apply Ea; exact Hk|]. unfold b. rewrite rmul_at by exact Hk. apply eqq_refl.
    - intros p Hp. eapply eqq_trans.
      + apply (ev_lin d (-8192) b a p). intros k Hk. rewrite AT by exact Hk.
        replace (at_ b k * -8192 + at_ a k) with (at_ a k - at_ b k * 8192) by (generalize (at_ a k) (at_ b k); intros; ring). apply eqq_refl.
      + assert (Eb : eqq (ev p b) (ev p c * ev p (vat t1 i))) by (apply ev_rmul; [exact Hp|exact Lc|apply (proj2 St); exact Hi]).
        pose proof (Va p Hp) as Ea'. revert Ea' Eb. generalize (ev p a) (ev p b) (mrow mat z i p) (ev p c) (ev p (vat t1 i)).
        intros x1 x2 x3 x4 x5 [k1 ->] [k2 ->]. exists (k1 - k2 * 8192). ring. }
  split.
  - intros [Sw E]. split; [eapply vec_shaped; [exact Sw|]; intros a [L _]; exact L|]. intros i k Hi Hk.
    split; [apply (proj2 Sw i Hi); exact Hk|]. apply cq_eqq. destruct (D i Hi) as (d & Ld & Ed & Vd).
    eapply eqq_trans; [|apply Ed; exact Hk]. revert k Hk. apply ev_inj. intros p Hp.
    eapply eqq_trans; [apply E; assumption|apply eqq_sym, Vd; exact Hp].
  - intros [Sw E]. split.
    + split; [apply Sw|]. intros i Hi. split; [apply Sw; exact Hi|]. intros p Hp. apply (E i p Hi Hp).
    + intros i Hi p Hp. destruct (D i Hi) as (d & Ld & Ed & Vd). eapply eqq_trans; [|apply Vd; exact Hp].
      apply ev_eqq. intros k Hk. eapply eqq_trans; [apply cq_eqq, (proj2 (E i k Hi Hk))|]. apply eqq_sym, Ed. exact Hk.
Qed.

Theorem dil_verify_spec : forall fuel X sig m pk, length pk = 1312%nat -> is_bytes sig ->
  (verify_signature fuel X sig m pk = CRet true <-> valid_spec fuel X sig m pk).
Proof.
  intros fuel X sig m pk Lp Bs. pose proof (unpack_pk_vec pk Lp) as V1. unfold valid_spec.
  assert (Z3 : forall c z h, length sig = 2420%nat -> unpack_sig sig = Some (c, z, h) -> shaped z /\ length h = 4%nat /\ hint_vec h).
  { intros c z h Ls Us. destruct (pack_unpack_sig sig c z h Ls Bs Us) as (Lc & Vz & Lh & Vh & Ho & _). split; [exact (vec4_shaped _ _ Vz)|]. auto. }
  split.
  - intro H. apply (dil_verify_iff _ _ _ _ _ _ Lp Bs) in H. destruct (proj1 H eq_refl) as (Ls & c & z & h & cp & mat & w & w1 & Us & Vz & Ec & Em & R & Ew & G).
    split; [exact Ls|]. destruct (unpack_pk pk) as [rho t1] eqn:Up. cbn [fst snd] in *.
    destruct (Z3 c z h Ls Us) as (Sz & Lh & Vh).
    destruct (matrix_ring fuel X rho mat Em) as (A & PA & EA).
    pose proof (proj1 (safe_inv _ _ _ (challenge_pol fuel X c) Ec)) as Lc.
    pose proof (proj1 (recomputed_ring fuel X rho mat A z t1 cp w Em EA Sz (vec4_shaped _ _ V1) Lc) R) as [Sw Hw].
    pose proof (proj1 (use_hint_vec w h w1 (proj1 R) (hint_rows_256 h Lh Vh)) Ew) as [S1 Hh].
    exists c, z, h, cp, A, w, w1. split; [exact Us|]. split.
    { intros i k Hi Hk. apply vec4_at in Vz. apply Vz; assumption. }
    repeat (split; [assumption|]). exact G.
  - intros (Ls & c & z & h & cp & A & w & w1 & H). destruct (unpack_pk pk) as [rho t1] eqn:Up. cbn [snd] in V1.
    destruct H as (Us & Bz & Ec & PA & Sw & S1 & Hw & Hh & G). destruct (Z3 c z h Ls Us) as (Sz & Lh & Vh).
    destruct (expand_defined _ _ _ _ PA) as (mat & Em). pose proof (public_entries _ _ _ _ _ Em PA) as EA.
    pose proof (proj1 (safe_inv _ _ _ (challenge_pol fuel X c) Ec)) as Lc.
    pose proof (proj2 (recomputed_ring fuel X rho mat A z t1 cp w Em EA Sz (vec4_shaped _ _ V1) Lc) (conj Sw Hw)) as R.
    pose proof (proj2 (use_hint_vec w h w1 (proj1 R) (hint_rows_256 h Lh Vh)) (conj S1 Hh)) as Ew.
    assert (Vz : vec4 (fun x => Z.abs x < GAMMA1 - BETA) z).
    { apply vec4_at. split; [apply Sz|]. intros i Hi. split; [apply Sz; exact Hi|]. intros p Hp. apply (Bz i p Hi Hp). }
    destruct (verify_run fuel X sig m pk rho t1 c z h cp mat Ls Up V1 Us Vz Ec Em) as (w' & R' & ->).
    rewrite (recomputed_unique _ _ _ _ _ _ R' R). rewrite Ew. cbn [cbind]. rewrite (firstn_all2 pk) by lia.
    f_equal. apply beq_spec. exact G.
Qed.
(** In particular the rejected inputs are exactly the others, whenever the hash stream lets the
    samplers finish. *)
Theorem dil_verify_reject : forall fuel X sig m pk b, length pk = 1312%nat -> is_bytes sig ->
  verify_signature fuel X sig m pk = CRet b -> (b = false <-> ~ valid_spec fuel X sig m pk).
Proof.
  intros fuel X sig m pk b Lp Bs H. rewrite <- (dil_verify_spec fuel X sig m pk Lp Bs), H.
  destruct b; split; intro G; congruence.
Qed.
