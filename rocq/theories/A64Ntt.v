(** * A64Ntt: the AArch64 transforms agree with ntt.c modulo q, within bounds. *)
From Coq Require Import ZArith List Lia Bool.
From Verif Require Import Base Bits SaberPoly Ring SaberRing DilArith DilNtt DilNttProof DilNttEval DilNttSpec DilPoly DilOps
  AvxMachine AvxSym AvxSymOk AvxNtt A64Machine A64Rel A64Sym A64SymOk.
Import ListNotations.
Open Scope Z_scope.

(** ** Barrett multiplication *)
(** [l] is h * 2^31 / q rounded to nearest. *)
Definition barrett (h l : Z) : Prop := 2 * Z.abs (h * 2147483648 - l * Q) <= Q /\ Z.abs h < Q.
Lemma bmul_ok : forall h l x, barrett h l -> in32 x -> - Q <= bmul h l x <= Q /\ eqq (bmul h l x) (h * x).
Proof.
  intros h l x [Hl Hh] Hx. unfold in32 in Hx.
  assert (QV : Q = 8380417) by reflexivity.
  assert (Bl : -2147483648 < l < 2147483648) by (rewrite QV in *; lia).
  set (t := Z.shiftr (2 * x * l + 2147483648) 32).
  assert (T : t * 4294967296 <= 2 * x * l + 2147483648 < t * 4294967296 + 4294967296).
  { unfold t. rewrite Z.shiftr_div_pow2 by lia. change (2 ^ 32) with 4294967296.
    pose proof (Z.div_mod (2 * x * l + 2147483648) 4294967296 ltac:(lia)).
    pose proof (Z.mod_pos_bound (2 * x * l + 2147483648) 4294967296 ltac:(lia)). lia. }
  assert (Bx : - 4611686016279904256 <= x * l <= 4611686016279904256) by (split; nia).
  assert (E : sqrdmulh x l = t). { unfold sqrdmulh. fold t. apply Z.min_l. lia. }
  unfold bmul. rewrite E. rewrite i32_sub_l.
  assert (D : - Q <= x * h - t * Q <= Q).
  { set (e := h * 2147483648 - l * Q) in *. assert (He : 2 * - Q <= 4 * e <= 2 * Q) by (clearbody e; lia).
    assert (X : x * h * 4294967296 - (2 * x * l) * Q = 2 * x * e) by (unfold e; ring).
    assert (X2 : - (2147483648 * Q) <= 2 * x * e <= 2147483648 * Q). { clearbody e. rewrite QV in *. nia. }
    clearbody e t. rewrite QV in *. lia. }
  rewrite i32_id by (unfold in32; rewrite QV in *; lia).
  split; [exact D|]. exists (- t). ring.
Qed.
Lemma barrett_opp : forall h l, barrett h l -> barrett (- h) (- l).
Proof.
  intros h l [A B]. split; [|lia]. replace (- h * 2147483648 - - l * Q) with (- (h * 2147483648 - l * Q)) by ring. lia.
Qed.
Lemma hz_barrett : forall i, 0 <= i < 256 -> barrett (hz i) (lz i).
Proof.
  assert (A : forallb (fun i => (2 * Z.abs (hz i * 2147483648 - lz i * Q) <=? Q) && (Z.abs (hz i) <? Q)) indices = true)
    by (vm_compute; reflexivity).
  intros i Hi. rewrite forallb_forall in A. assert (I : In i indices).
  { unfold indices. apply in_map_iff. exists (Z.to_nat i). split; [lia|apply in_seq; lia]. }
  specialize (A i I). apply andb_true_iff in A. destruct A as [A B]. apply Z.leb_le in A. apply Z.ltb_lt in B. split; assumption.
Qed.
Lemma hz_zeta : forall i, eqq (hz i) (zr (zeta i)).
Proof.
  intro i. unfold hz, zr. apply eqq_mod.
  destruct (4190208 <? (zeta i * RINV) mod Q); [rewrite Zminus_mod, Z_mod_same_full, Z.sub_0_r, Z.mod_mod, Z.mod_mod|rewrite Z.mod_mod];
    try reflexivity; discriminate.
Qed.
Lemma NR_barrett : barrett NR_h NR_l. Proof. split; vm_compute; [intro H; discriminate H|reflexivity]. Qed.
Lemma NW_barrett : barrett NW_h NW_l. Proof. split; vm_compute; [intro H; discriminate H|reflexivity]. Qed.

(** ** Indices *)
Lemma split_idx : forall n m j, 0 < n -> 256 = 2 * n * m -> 0 <= j < 256 ->
  (j mod (2 * n) < n /\ block_of n j /\ j + n < 256) \/
  (n <= j mod (2 * n) /\ block_of n (j - n) /\ (j - n) / (2 * n) = j / (2 * n)).
Proof.
  intros n m j Hn Hm Hj. pose proof (Z.div_mod j (2 * n) ltac:(lia)) as E. pose proof (Z.mod_pos_bound j (2 * n) ltac:(lia)) as B.
  assert (0 <= j / (2 * n)) by (apply Z.div_pos; lia).
  assert (j / (2 * n) < m) by (apply Z.div_lt_upper_bound; lia).
  destruct (Z.lt_ge_cases (j mod (2 * n)) n) as [L|G].
  - left. split; [exact L|]. split; [split; assumption|]. nia.
  - right. split; [exact G|].
    assert ((j - n) mod (2 * n) = j mod (2 * n) - n) as M by (symmetry; apply (Z.mod_unique_pos _ _ (j / (2 * n))); lia).
    assert ((j - n) / (2 * n) = j / (2 * n)) as D by (symmetry; apply (Z.div_unique_pos _ _ _ (j mod (2 * n) - n)); lia).
    split; [|exact D]. split; [nia|]. rewrite M. lia.
Qed.
Lemma flen_div : forall k, (k < 8)%nat -> exists m, 256 = 2 * flen k * m.
Proof. apply below8; [exists 1|exists 2|exists 4|exists 8|exists 16|exists 32|exists 64|exists 128]; reflexivity. Qed.
Lemma ilen_div : forall k, (k < 8)%nat -> exists m, 256 = 2 * ilen k * m.
Proof. apply below8; [exists 128|exists 64|exists 32|exists 16|exists 8|exists 4|exists 2|exists 1]; reflexivity. Qed.
Lemma ilen_pos : forall k, (k < 8)%nat -> 0 < ilen k.
Proof. apply below8; reflexivity. Qed.
Lemma ftw_range : forall k j, (k < 8)%nat -> 0 <= j < 256 -> 0 <= ftw k j < 256.
Proof.
  intros k j Hk Hj. unfold ftw. destruct (flen_div k Hk) as [m Hm]. pose proof (flen_pos k Hk) as P.
  assert (0 <= j / (2 * flen k) < m) by (split; [apply Z.div_pos; lia|apply Z.div_lt_upper_bound; lia]).
  assert (128 / flen k = m) by (symmetry; apply Z.div_unique_exact; nia). nia.
Qed.
Lemma itw_range : forall n m j, 0 < n -> 256 = 2 * n * m -> 0 <= j < 256 -> 0 <= 256 / n - 1 - j / (2 * n) < 256.
Proof.
  intros n m j Hn Hm Hj.
  assert (0 <= j / (2 * n) < m) by (split; [apply Z.div_pos; lia|apply Z.div_lt_upper_bound; lia]).
  assert (256 / n = 2 * m) by (symmetry; apply Z.div_unique_exact; nia). nia.
Qed.

(** ** Forward *)
Lemma fwd64_agree : forall E a B, env_ok E -> (forall j, 0 <= j < 256 -> ef E 0 j = a j) -> (forall j, 0 <= j < 256 -> - B <= a j <= B) ->
  0 <= B -> B + 8 * Q < 2147483648 ->
  (forall k j, (k < 8)%nat -> 0 <= j < 256 -> in32 (ef E k j)) ->
  forall k, (k <= 8)%nat -> forall j, 0 <= j < 256 ->
    - (B + Z.of_nat k * Q) <= fval a k j <= B + Z.of_nat k * Q /\ eqq (fval a k j) (ef E k j).
Proof.
  intros E a B (EF & _) E0 Ba HB HB2 EB. assert (QV : Q = 8380417) by reflexivity.
  induction k as [|k IH]; intros Hk j Hj.
  - cbn [fval]. rewrite E0 by exact Hj. specialize (Ba j Hj). split; [lia|apply eqq_refl].
  - specialize (IH ltac:(lia)). destruct (flen_div k ltac:(lia)) as [m Hm]. pose proof (flen_pos k ltac:(lia)) as P.
    assert (W : forall i x y, 0 <= i < 256 -> fwd_step (zeta i) x y = fwd_step (zeta i) x y ->
      forall x' y' u v, fwd_step (zeta i) x y = CRet (x', y') -> in32 y -> eqq u x -> eqq v y -> - (B + Z.of_nat k * Q) <= u <= B + Z.of_nat k * Q ->
        - (B + Z.of_nat k * Q) <= v <= B + Z.of_nat k * Q ->
        (- (B + Z.of_nat (S k) * Q) <= i32 (u + bmul (hz i) (lz i) v) <= B + Z.of_nat (S k) * Q /\ eqq (i32 (u + bmul (hz i) (lz i) v)) x') /\
        (- (B + Z.of_nat (S k) * Q) <= i32 (u - bmul (hz i) (lz i) v) <= B + Z.of_nat (S k) * Q /\ eqq (i32 (u - bmul (hz i) (lz i) v)) y')).
    { intros i x y Hi _ x' y' u v Hs Hy Hu Hv Bu Bv.
      apply (fwd_step_spec (zeta i)) in Hs; [|apply zetas_bound|exact Hy]. destruct Hs as (S1 & S2 & _).
      destruct (bmul_ok (hz i) (lz i) v (hz_barrett i Hi)) as [M1 M2]; [unfold in32; rewrite QV in *; lia|].
      assert (M3 : eqq (bmul (hz i) (lz i) v) (zr (zeta i) * y)).
      { eapply eqq_trans; [exact M2|]. apply eqq_mul; [apply hz_zeta|exact Hv]. }
      rewrite !i32_id by (unfold in32; rewrite QV in *; lia).
      split; (split; [rewrite QV in *; lia|]).
      - eapply eqq_trans; [apply eqq_add; [exact Hu|exact M3]|apply eqq_sym; exact S1].
      - eapply eqq_trans; [apply eqq_sub; [exact Hu|exact M3]|apply eqq_sym; exact S2]. }
    cbn [fval]. unfold fstage. cbv zeta. destruct (split_idx (flen k) m j P Hm Hj) as [(L & Bk & H2)|(G & Bk & H2)].
    + assert (j mod (2 * flen k) <? flen k = true) as -> by (apply Z.ltb_lt; exact L).
      destruct (IH j Hj) as [I1 I2]. destruct (IH (j + flen k) ltac:(lia)) as [I3 I4].
      specialize (EF k j ltac:(lia) Bk).
      apply (W (ftw k j) _ _ (ftw_range k j ltac:(lia) Hj) eq_refl _ _ _ _ EF (EB k (j + flen k) ltac:(lia) ltac:(lia)) I2 I4 I1 I3).
    + assert (j mod (2 * flen k) <? flen k = false) as -> by (apply Z.ltb_ge; exact G).
      pose proof (proj1 Bk) as B0. specialize (EF k (j - flen k) ltac:(lia) Bk). rewrite H2 in EF.
      replace (j - flen k + flen k) with j in EF by lia.
      destruct (IH j Hj) as [I1 I2]. destruct (IH (j - flen k) B0) as [I3 I4].
      apply (W (ftw k j) _ _ (ftw_range k j ltac:(lia) Hj) eq_refl _ _ _ _ EF (EB k _ ltac:(lia) Hj) I4 I2 I3 I1).
Qed.

(** ** Inverse *)
(** The layer of ntt.c behind a stage, and the bound, in multiples of q. *)
Definition kof (s : nat) : nat := nth s [0; 1; 2; 3; 4; 4; 5; 6; 7]%nat 0%nat.
Definition ib (s : nat) : Z := nth s [1; 2; 4; 8; 16; 1; 2; 4; 8] 0.
Lemma sr23_ok : forall x, - (16 * Q) <= x <= 16 * Q -> - Q <= x - sr23 x * Q <= Q.
Proof.
  intros x Hx. unfold sr23. rewrite Z.shiftr_div_pow2 by lia. change (2 ^ 23) with 8388608.
  pose proof (Z.div_mod (x + 4194304) 8388608 ltac:(lia)) as E. pose proof (Z.mod_pos_bound (x + 4194304) 8388608 ltac:(lia)).
  unfold Q in *. lia.
Qed.
Lemma inv64_agree : forall E a, env_ok E -> (forall j, 0 <= j < 256 -> ei E 0 j = a j) -> (forall j, 0 <= j < 256 -> - Q <= a j <= Q) ->
  forall s, (s <= 8)%nat -> forall j, 0 <= j < 256 ->
    - (ib s * Q) <= ival a s j <= ib s * Q /\ eqq (ival a s j) (ei E (kof s) j) /\
    (s = 4%nat -> 8 <= j mod 16 -> - Q <= ival a s j <= Q).
Proof.
  intros E a (_ & EI & _) E0 Ba. assert (QV : Q = 8380417) by reflexivity.
  induction s as [|s IH]; intros Hs j Hj.
  - cbn [ival]. change (kof 0) with 0%nat. rewrite E0 by exact Hj. specialize (Ba j Hj). change (ib 0) with 1.
    split; [lia|]. split; [apply eqq_refl|]. intro C; discriminate C.
  - specialize (IH ltac:(lia)). destruct (Nat.eq_dec s 4) as [->|N].
    + destruct (IH j Hj) as (I1 & I2 & I3). change (ival a 5 j) with (istage 4 (ival a 4) j).
      change (kof 5) with (kof 4). change (ib 5) with 1. change (ib 4) with 16 in I1. unfold istage. cbn [Nat.eqb].
      destruct (j mod 16 <? 8) eqn:M.
      * pose proof (sr23_ok _ I1) as S. rewrite i32_id by (unfold in32; rewrite QV in *; lia).
        split; [lia|]. split; [|intro C; discriminate C]. eapply eqq_trans; [|exact I2]. exists (- sr23 (ival a 4 j)). ring.
      * apply Z.ltb_ge in M. specialize (I3 eq_refl M). split; [lia|]. split; [exact I2|]. intro C; discriminate C.
    + assert (Hs8 : (s < 8)%nat) by lia.
      assert (K1 : slen s = ilen (kof s) /\ kof (S s) = Datatypes.S (kof s) /\ (kof s < 8)%nat /\ ib (S s) = 2 * ib s /\ 1 <= ib s <= 8).
      { clear - Hs8 N. do 8 (destruct s as [|s]; [first [exfalso; apply N; reflexivity|
          split; [reflexivity|split; [reflexivity|split; [apply Nat.leb_le; reflexivity|split; [reflexivity|cbn; lia]]]]]|]). lia. }
      destruct K1 as (K1 & K2 & K3 & K4 & K5).
      destruct (ilen_div (kof s) K3) as [m Hm]. pose proof (ilen_pos (kof s) K3) as P. rewrite <- K1 in Hm, P.
      rewrite K2, K4. change (ival a (S s) j) with (istage s (ival a s) j).
      unfold istage. assert (Nat.eqb s 4 = false) as -> by (apply Nat.eqb_neq; exact N). cbv zeta.
      specialize (EI (kof s)). rewrite <- K1 in EI.
      destruct (split_idx (slen s) m j P Hm Hj) as [(L & Bk & H2)|(G & Bk & H2)].
      * assert (j mod (2 * slen s) <? slen s = true) as -> by (apply Z.ltb_lt; exact L).
        destruct (IH j Hj) as (I1 & I2 & _). destruct (IH (j + slen s) ltac:(lia)) as (I3 & I4 & _).
        destruct (EI j K3 Bk) as [E1 _]. apply inv_step_inv in E1. destruct E1 as (E1 & _).
        rewrite i32_id by (unfold in32; rewrite QV in *; lia). split; [lia|]. split.
        -- rewrite E1. apply eqq_add; assumption.
        -- intros S4 J. exfalso. assert (s = 3%nat) by lia. subst s. change (slen 3) with 8 in L. change (2 * 8) with 16 in L. lia.
      * assert (j mod (2 * slen s) <? slen s = false) as -> by (apply Z.ltb_ge; exact G).
        pose proof (proj1 Bk) as B0. destruct (EI (j - slen s) K3 Bk) as [E1 _]. rewrite H2 in E1.
        replace (j - slen s + slen s) with j in E1 by lia.
        destruct (IH j Hj) as (I1 & I2 & _). destruct (IH (j - slen s) B0) as (I3 & I4 & _).
        change (256 / slen s - 1 - j / (2 * slen s)) with (itw s j) in E1.
        assert (T : 0 <= itw s j < 256) by (unfold itw; apply (itw_range (slen s) m); auto).
        apply (inv_step_spec (- zeta (itw s j))) in E1; [|pose proof (zetas_bound (Z.to_nat (itw s j))) as ZB; unfold zeta, at_ in *; lia].
        destruct E1 as (_ & E1 & _).
        rewrite i32_id by (unfold in32; rewrite QV in *; lia).
        destruct (bmul_ok (- hz (itw s j)) (- lz (itw s j)) (ival a s (j - slen s) - ival a s j)) as [M1 M2];
          [apply barrett_opp, hz_barrett; exact T|unfold in32; rewrite QV in *; lia|].
        split; [lia|]. split; [|intros _ _; exact M1].
        eapply eqq_trans; [exact M2|]. eapply eqq_trans; [|apply eqq_sym; exact E1]. apply eqq_mul; [|apply eqq_sub; assumption].
        pose proof (eqq_opp _ _ (hz_zeta (itw s j))) as H. unfold zr in *. replace (- zeta (itw s j) * RINV) with (- (zeta (itw s j) * RINV)) by ring. exact H.
Qed.
Lemma center64_ok : forall x, - Q <= x <= Q -> - 4190209 <= center64 x <= 4190209 /\ eqq (center64 x) x.
Proof.
  intros x Hx. unfold center64, QHALF, Q in *.
  destruct (Z.leb_spec 4190208 x); destruct (Z.leb_spec x (-(4190208))); try lia; cbn [Z.sub Z.add Z.opp];
    (match goal with |- context [i32 ?z * _] => let v := eval vm_compute in (i32 z) in change (i32 z) with v end);
    rewrite i32_id by (unfold in32; lia); (split; [lia|]); [exists (-1)|exists 1|exists 0]; unfold Q; lia.
Qed.

(** ** The functions *)
(** ntt.h 45-48, poly.c 185-187: poly_ntt calls top, then bottom. *)
Definition ntt64 (v1 v2 : list (list Z)) (j1 j2 : list Z) (a : poly) : option poly :=
  match transform_call ntt_top_prog ct_table v1 j1 a with
  | Some b => transform_call ntt_bot_prog ct_table v2 j2 b
  | None => None
  end.
(** ntt.h 49-52: bottom, then top. *)
Definition invntt64 (v1 v2 : list (list Z)) (j1 j2 : list Z) (a : poly) : option poly :=
  match transform_call intt_bot_prog inv_table v1 j1 a with
  | Some b => transform_call intt_top_prog inv_table v2 j2 b
  | None => None
  end.
(** What a call finds in the registers it does not set. *)
Definition regs64 (vs : list (list Z)) (junk : list Z) : Prop := vregs_ok vs /\ length junk = 28%nat.

Lemma nth_indices : forall (f : Z -> Z) p, (p < 256)%nat -> at_ (map f indices) p = f (Z.of_nat p).
Proof. intros f p Hp. unfold indices. rewrite map_map. apply (nth_map_seq (fun i => f (Z.of_nat i))). exact Hp. Qed.
Lemma map_indices_length : forall (f : Z -> Z), length (map f indices) = 256%nat.
Proof. intro f. unfold indices. rewrite !map_length, seq_length. reflexivity. Qed.

Theorem ntt64_ok : forall v1 v2 j1 j2 a B, regs64 v1 j1 -> regs64 v2 j2 -> length a = 256%nat -> 0 <= B -> bnd B a -> B + 8 * Q < 2147483648 ->
  exists r v, ntt64 v1 v2 j1 j2 a = Some r /\ ntt a = CRet v /\ length r = 256%nat /\ bnd (B + 8 * Q) r /\
    (forall p, (p < 256)%nat -> eqq (at_ r p) (at_ v p)).
Proof.
  intros v1 v2 j1 j2 a B [V1 J1] [V2 J2] L HB0 H HB. destruct (fwd_arrays_exist a B L H HB) as (F & HF).
  set (z := repeat 0 256).
  assert (Lz : length z = 256%nat) by reflexivity.
  assert (Bz : bnd Q z). { intros p Hp. unfold z, at_. rewrite nth_repeat. unfold Q. lia. }
  destruct (inv_arrays_exist z Lz Bz) as (G & HG).
  pose proof (env_of_ok a z B F G HF HG) as OK. 
  exists (map (fun j => fval (read a) 8 j) indices), (F 8%nat).
  split.
  { unfold ntt64. rewrite (transform_call_ok ntt_top_prog ct_table (MF 0) (MF 4) (read a) (read a) v1 j1 a sym_ntt_top V1 J1);
      [|symmetry; apply read_indices; exact L].
    rewrite (transform_call_ok ntt_bot_prog ct_table (MF 4) (MF 8) (read a) (read a) v2 j2 _ sym_ntt_bot V2 J2 eq_refl). reflexivity. }
  pose proof HF as (F0 & F8 & FL & FLen & FB). split; [exact F8|]. split; [apply map_indices_length|].
  assert (A : forall j, 0 <= j < 256 -> - (B + 8 * Q) <= fval (read a) 8 j <= B + 8 * Q /\ eqq (fval (read a) 8 j) (at_ (F 8%nat) (Z.to_nat j))).
  { pose proof (fwd64_agree (env_of F G) (read a) B OK) as W.
    assert (W1 : forall j, 0 <= j < 256 -> ef (env_of F G) 0 j = read a j) by (intros; cbn [env_of ef]; rewrite F0; reflexivity).
    assert (W2 : forall j, 0 <= j < 256 -> - B <= read a j <= B) by (intros j Hj; unfold read; apply H; lia).
    specialize (W W1 W2 HB0 HB). refine (W _ 8%nat (Nat.le_refl 8)).
    clear W. intros k j Hk Hj. destruct k as [|k]; [rewrite W1 by exact Hj; specialize (W2 j Hj); unfold in32, Q in *; lia|].
    destruct (flen_div k ltac:(lia)) as [m Hm]. pose proof (flen_pos k ltac:(lia)) as P.
    destruct OK as (EF & _).
    destruct (split_idx (flen k) m j P Hm Hj) as [(_ & Bk & _)|(_ & Bk & _)].
    - specialize (EF k j ltac:(lia) Bk). apply fwd_step_inv in EF. apply EF.
    - specialize (EF k (j - flen k) ltac:(lia) Bk). apply fwd_step_inv in EF. replace (j - flen k + flen k) with j in EF by lia. apply EF. }
  split; intros p Hp; (rewrite nth_indices by exact Hp); destruct (A (Z.of_nat p) ltac:(lia)) as [A1 A2].
  - exact A1.
  - rewrite Nat2Z.id in A2. exact A2.
Qed.

Theorem invntt64_ok : forall v1 v2 j1 j2 u, regs64 v1 j1 -> regs64 v2 j2 -> length u = 256%nat -> bnd Q u ->
  exists r c, invntt64 v1 v2 j1 j2 u = Some r /\ invntt_tomont u = CRet c /\ length r = 256%nat /\
    (forall p, (p < 256)%nat -> - 4190209 <= at_ r p <= 4190209 /\ eqq (at_ r p) (at_ c p)).
Proof.
  intros v1 v2 j1 j2 u [V1 J1] [V2 J2] L H. destruct (inv_arrays_exist u L H) as (G & HG).
  set (z := repeat 0 256).
  assert (Lz : length z = 256%nat) by reflexivity.
  assert (Bz : bnd Q z). { intros p Hp. unfold z, at_. rewrite nth_repeat. unfold Q. lia. }
  destruct (fwd_arrays_exist z Q Lz Bz) as (F & HF); [unfold Q; lia|].
  pose proof (env_of_ok z u Q F G HF HG) as OK.
  destruct HG as (G0 & G8 & GL & GB & LG & BG).
  set (R := fun j => center64 (last64 (ival (read u) 8) j)).
  destruct (mapM_ok (fun x => montgomery_reduce (F_INV * x))
     (fun x r => eqq (r * 4294967296) (F_INV * x)) (G 8%nat)) as (c & Ec & Lc & Pc).
  { intros x Hx. destruct (in_at _ x Hx) as (p & Hp & ->). rewrite LG in Hp.
    specialize (BG p Hp). destruct (f_inv_ok (at_ (G 8%nat) p)) as (r & Er & _ & Cr); [unfold in32, Q in *; lia|].
    exists r. split; [exact Er|exact Cr]. }
  rewrite LG in *.
  exists (map R indices), c. split.
  { unfold invntt64. rewrite (transform_call_ok intt_bot_prog inv_table (MI 0) (MI 5) (read u) (read u) v1 j1 u sym_intt_bot V1 J1);
      [|symmetry; apply read_indices; exact L].
    rewrite (transform_call_ok intt_top_prog inv_table (MI 5) MR (read u) (read u) v2 j2 _ sym_intt_top V2 J2 eq_refl). reflexivity. }
  split; [unfold invntt_tomont; rewrite G8; exact Ec|]. split; [apply map_indices_length|].
  intros p Hp. rewrite nth_indices by exact Hp. unfold R.
  assert (A : forall j, 0 <= j < 256 -> - (8 * Q) <= ival (read u) 8 j <= 8 * Q /\ eqq (ival (read u) 8 j) (at_ (G 7%nat) (Z.to_nat j))).
  { intros j Hj. destruct (inv64_agree (env_of F G) (read u) OK) with (s := 8%nat) (j := j) as (A1 & A2 & _); auto.
    - intros i Hi. cbn [env_of ei]. rewrite G0. reflexivity.
    - intros i Hi. unfold read. apply H. lia. }
  specialize (Pc p Hp).
  assert (W : - Q <= last64 (ival (read u) 8) (Z.of_nat p) <= Q /\ eqq (last64 (ival (read u) 8) (Z.of_nat p)) (at_ c p)).
  { unfold last64. destruct (Z.ltb_spec (Z.of_nat p) 128) as [Lt|Ge].
    - destruct (A (Z.of_nat p) ltac:(lia)) as [A1 A2]. destruct (A (Z.of_nat p + 128) ltac:(lia)) as [A3 A4].
      rewrite i32_id by (unfold in32, Q in *; lia).
      destruct (bmul_ok NR_h NR_l (ival (read u) 8 (Z.of_nat p) + ival (read u) 8 (Z.of_nat p + 128)) NR_barrett) as [M1 M2];
        [unfold in32, Q in *; lia|].
      split; [exact M1|]. apply eqq_cancel_R. eapply eqq_trans; [|apply eqq_sym; exact Pc].
      pose proof (GL 7%nat ltac:(lia) 0%nat p ltac:(cbn; lia) ltac:(cbn; lia)) as R7. cbn zeta in R7.
      change (leni 7) with 128%nat in R7. change (0 * (2 * 128) + p)%nat with p in R7. apply inv_step_inv in R7. destruct R7 as (R7 & _).
      rewrite R7. rewrite Nat2Z.id in A2. replace (Z.to_nat (Z.of_nat p + 128)) with (p + 128)%nat in A4 by lia.
      pose proof (eqq_add _ _ _ _ A2 A4) as S. revert M2 S. clear.
      generalize (bmul NR_h NR_l (ival (read u) 8 (Z.of_nat p) + ival (read u) 8 (Z.of_nat p + 128))).
      generalize (ival (read u) 8 (Z.of_nat p) + ival (read u) 8 (Z.of_nat p + 128)) (at_ (G 7%nat) p + at_ (G 7%nat) (p + 128)).
      intros x g r [m M2] [n S]. exists (m * 4294967296 + F_INV * n + 8395782 * x). rewrite M2, S. unfold NR_h, F_INV, Q. ring.
    - assert (Hq : (p - 128 < 128)%nat) by lia. set (q := (p - 128)%nat) in *.
      destruct (A (Z.of_nat p) ltac:(lia)) as [A1 A2]. destruct (A (Z.of_nat p - 128) ltac:(lia)) as [A3 A4].
      rewrite i32_id by (unfold in32, Q in *; lia).
      destruct (bmul_ok NW_h NW_l (ival (read u) 8 (Z.of_nat p - 128) - ival (read u) 8 (Z.of_nat p)) NW_barrett) as [M1 M2];
        [unfold in32, Q in *; lia|].
      split; [exact M1|]. apply eqq_cancel_R. apply eqq_cancel_R.
      pose proof (GL 7%nat ltac:(lia) 0%nat q ltac:(cbn; lia) ltac:(cbn; lia)) as R7. cbn zeta in R7.
      change (leni 7) with 128%nat in R7. change (0 * (2 * 128) + q)%nat with q in R7.
      replace (q + 128)%nat with p in R7 by lia. change (256 / 128 - 1 - 0)%nat with 1%nat in R7.
      apply inv_step_inv in R7. destruct R7 as (_ & R7 & _ & R8). change (at_ zetas 1) with 25847 in R7.
      destruct (mred_ok (at_ (G 7%nat) q - at_ (G 7%nat) p) (Z.opp 25847) R8) as [_ M3]; [unfold Q; lia|].
      rewrite <- R7 in M3. rewrite Nat2Z.id in A2. replace (Z.to_nat (Z.of_nat p - 128)) with q in A4 by lia.
      pose proof (eqq_sub _ _ _ _ A4 A2) as S. revert M2 S M3 Pc. clear.
      generalize (bmul NW_h NW_l (ival (read u) 8 (Z.of_nat p - 128) - ival (read u) 8 (Z.of_nat p))).
      generalize (ival (read u) 8 (Z.of_nat p - 128) - ival (read u) 8 (Z.of_nat p)) (at_ (G 7%nat) q - at_ (G 7%nat) p).
      generalize (at_ c p) (at_ (G 8%nat) p). intros x y d g r [m M2] [n S] [l M3] [o Pc].
      set (K := (NW_h * 4294967296 * 4294967296 + F_INV * 25847) / Q).
      assert (N : NW_h * 4294967296 * 4294967296 = - F_INV * 25847 + K * Q) by (vm_compute; reflexivity). clearbody K.
      assert (S' : g = d - n * Q) by lia. clear S. subst g.
      exists (m * 4294967296 * 4294967296 + K * d + F_INV * 25847 * n * -1 - o * 4294967296 - F_INV * l).
      replace (r * 4294967296 * 4294967296) with (NW_h * 4294967296 * 4294967296 * d + m * Q * 4294967296 * 4294967296) by (rewrite M2; ring).
      rewrite N. rewrite Pc. replace ((F_INV * y + o * Q) * 4294967296) with (F_INV * (y * 4294967296) + o * Q * 4294967296) by ring.
      rewrite M3. ring. }
  destruct W as [W1 W2]. destruct (center64_ok _ W1) as [C1 C2]. split; [exact C1|]. eapply eqq_trans; [exact C2|exact W2].
Qed.
