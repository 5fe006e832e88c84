(** * A64SymOk: the AArch64 transforms compute the scalar transforms of A64Sym.v, exactly. *)
From Coq Require Import ZArith List Lia Bool.
From Verif Require Import Base Bits DilArith DilNtt AvxMachine AvxSym AvxSymOk AvxNtt A64Machine A64Rel A64Sym.
Import ListNotations.
Open Scope Z_scope.

Section Denote.
Variables fa ia : Z -> Z.
Definition den (a : atom64) : Z :=
  match a with
  | MF k j => fval fa k j
  | MI s j => ival ia s j
  | MS j => i32 (ival ia 8 j + ival ia 8 (j + 128))
  | MD s j => i32 (ival ia s j - ival ia s (j + slen s))
  | ME j => last64 (ival ia 8) j
  | MR j => center64 (last64 (ival ia 8) j)
  end.
Definition srel64 (t : sym64) (v : Z) : Prop :=
  match t with
  | TC z => v = z
  | TA a => v = den a
  | TM a z => v = i32 (den a * z)
  | TR a z => v = sqrdmulh (den a) z
  | TB a h l => v = bmul h l (den a)
  | TS a => v = sr23 (den a)
  | TG a => v = if QHALF <=? den a then -1 else 0
  | TL a => v = if den a <=? - QHALF then -1 else 0
  | TD a => v = i32 ((if QHALF <=? den a then -1 else 0) - (if den a <=? - QHALF then -1 else 0))
  | TX => True
  end.

Lemma atom64_eqb_eq : forall a b, atom64_eqb a b = true -> a = b.
Proof.
  intros a b. destruct a, b; cbn; intro H; try discriminate H;
    try (apply andb_true_iff in H; destruct H as [H1 H2]; apply Nat.eqb_eq in H1; apply Z.eqb_eq in H2; congruence);
    apply Z.eqb_eq in H; congruence.
Qed.
Lemma norm_i_den : forall s j, den (norm_i s j) = ival ia s j.
Proof.
  intros s j. unfold norm_i. destruct (Nat.eqb s 4) eqn:E; cbn [andb]; [|reflexivity].
  apply Nat.eqb_eq in E. subst s. destruct (j mod 16 <? 8) eqn:M; cbn [negb]; [reflexivity|].
  cbn [den]. change (ival ia 5 j) with (istage 4 (ival ia 4) j). unfold istage. cbn [Nat.eqb]. rewrite M. reflexivity.
Qed.
(** The two members of a pair of indices. *)
Lemma pair_idx : forall n j, 0 < n -> j mod (2 * n) < n ->
  (j + n) mod (2 * n) = j mod (2 * n) + n /\ (j + n) / (2 * n) = j / (2 * n).
Proof.
  intros n j Hn H. pose proof (Z.div_mod j (2 * n) ltac:(lia)) as E. pose proof (Z.mod_pos_bound j (2 * n) ltac:(lia)) as B.
  split.
  - symmetry. apply (Z.mod_unique_pos _ _ (j / (2 * n))); lia.
  - symmetry. apply (Z.div_unique_pos _ _ _ (j mod (2 * n) + n)); lia.
Qed.
Lemma flen_pos : forall k, (k < 8)%nat -> 0 < flen k.
Proof. apply below8; reflexivity. Qed.
Lemma slen_pos : forall s, (s < 8)%nat -> s <> 4%nat -> 0 < slen s.
Proof. intros s Hs H. do 9 (destruct s as [|s]; [try reflexivity; lia|]). lia. Qed.

Lemma fpair_lo : forall k j h l, fpair k j (j + flen k) = true -> ftw_ok k j h l = true ->
  fval fa (S k) j = i32 (fval fa k j + bmul h l (fval fa k (j + flen k))) /\
  fval fa (S k) (j + flen k) = i32 (fval fa k j - bmul h l (fval fa k (j + flen k))).
Proof.
  intros k j h l H T. unfold fpair in H. cbv zeta in H. rewrite !andb_true_iff in H. destruct H as ((((H1 & _) & H2) & H3) & H4).
  apply Nat.ltb_lt in H1. apply Z.ltb_lt in H4. pose proof (flen_pos k H1) as P.
  unfold ftw_ok in T. apply andb_true_iff in T. destruct T as [T1 T2]. apply Z.eqb_eq in T1. apply Z.eqb_eq in T2. subst h l.
  destruct (pair_idx (flen k) j P H4) as [I1 I2]. pose proof (Z.mod_pos_bound j (2 * flen k) ltac:(lia)) as B.
  cbn [fval]. unfold fstage. cbv zeta. split.
  - apply Z.ltb_lt in H4. rewrite H4. reflexivity.
  - rewrite I1. unfold ftw. rewrite I2. destruct (j mod (2 * flen k) + flen k <? flen k) eqn:C; [apply Z.ltb_lt in C; lia|].
    replace (j + flen k - flen k) with j by lia. reflexivity.
Qed.
Lemma ipair_inv : forall s j, ipair s j = true -> (s < 8)%nat /\ s <> 4%nat /\ 0 < slen s /\ 0 <= j < 256 /\ j mod (2 * slen s) < slen s.
Proof.
  intros s j H. unfold ipair in H. cbv zeta in H. rewrite !andb_true_iff in H. destruct H as ((((H1 & H0) & H2) & H3) & H4).
  apply Nat.ltb_lt in H1. apply Z.ltb_lt in H4. apply Z.leb_le in H2. apply Z.ltb_lt in H3.
  assert (s <> 4%nat) as N by (intros ->; discriminate H0). pose proof (slen_pos s H1 N). auto 10.
Qed.
Lemma ipair_lo : forall s j, ipair s j = true ->
  ival ia (S s) j = i32 (ival ia s j + ival ia s (j + slen s)) /\
  ival ia (S s) (j + slen s) = bmul (- hz (itw s j)) (- lz (itw s j)) (i32 (ival ia s j - ival ia s (j + slen s))).
Proof.
  intros s j H. apply ipair_inv in H. destruct H as (H1 & N & P & H2 & H4).
  destruct (pair_idx (slen s) j P H4) as [I1 I2]. pose proof (Z.mod_pos_bound j (2 * slen s) ltac:(lia)) as B.
  assert (Nat.eqb s 4 = false) as E by (apply Nat.eqb_neq; exact N).
  cbn [ival]. unfold istage. rewrite E. cbv zeta. split.
  - apply Z.ltb_lt in H4. rewrite H4. reflexivity.
  - rewrite I1. unfold itw. rewrite I2. destruct (j mod (2 * slen s) + slen s <? slen s) eqn:C; [apply Z.ltb_lt in C; lia|].
    replace (j + slen s - slen s) with j by lia. reflexivity.
Qed.
Lemma low128_inv : forall j, low128 j = true -> 0 <= j < 128.
Proof. intros j H. unfold low128 in H. apply andb_true_iff in H. destruct H. apply Z.leb_le in H. apply Z.ltb_lt in H0. lia. Qed.

Lemma norm_b_den : forall a h l, srel64 (norm_b a h l) (bmul h l (den a)).
Proof.
  intros a h l. destruct a as [k j|s j|j|s j|j|j]; try exact Logic.I; try exact eq_refl.
  - unfold norm_b. destruct (low128 j && (h =? NR_h) && (l =? NR_l)) eqn:E; [|exact Logic.I].
    rewrite !andb_true_iff in E. destruct E as [[E0 E1] E2]. apply Z.eqb_eq in E1. apply Z.eqb_eq in E2. subst h l.
    apply low128_inv in E0. cbn [srel64 den]. unfold last64. assert (j <? 128 = true) as -> by (apply Z.ltb_lt; lia). reflexivity.
  - unfold norm_b. destruct (Nat.eqb s 8) eqn:S8.
    + apply Nat.eqb_eq in S8. subst s.
      destruct (low128 j && (h =? NW_h) && (l =? NW_l)) eqn:E; [|exact Logic.I].
      rewrite !andb_true_iff in E. destruct E as [[E0 E1] E2]. apply Z.eqb_eq in E1. apply Z.eqb_eq in E2. subst h l.
      apply low128_inv in E0. cbn [srel64 den]. unfold last64. destruct (j + 128 <? 128) eqn:C; [apply Z.ltb_lt in C; lia|].
      replace (j + 128 - 128) with j by lia. reflexivity.
    + destruct (ipair s j && (h =? - hz (itw s j)) && (l =? - lz (itw s j))) eqn:E; [|exact Logic.I].
      rewrite !andb_true_iff in E. destruct E as [[E0 E1] E2]. apply Z.eqb_eq in E1. apply Z.eqb_eq in E2. subst h l.
      destruct (ipair_lo s j E0) as [_ HH]. cbn [srel64]. rewrite norm_i_den, HH. reflexivity.
Qed.

Theorem sym64_related : lanes_related slane64 zlane64 srel64.
Proof.
  split; try (intros; split; exact Logic.I); try (intros; exact Logic.I).
  - (* add *) intros x x' y y' Hx Hy. cbn [n_add slane64 zlane64]. unfold t_add.
    destruct x as [z|a|? ?|? ?|? ? ?|?|?|?|?|]; try exact Logic.I. destruct a as [k j|s j|j|s j|j|j]; try exact Logic.I.
    + destruct y as [z|b|? ?|? ?|b h l|?|?|?|?|]; try exact Logic.I. destruct b as [k' j'|s' j'|j'|s' j'|j'|j']; try exact Logic.I.
      destruct (Nat.eqb k k' && fpair k j j' && ftw_ok k j h l) eqn:E; [|exact Logic.I].
      rewrite !andb_true_iff in E. destruct E as [[E0 E1] E2]. apply Nat.eqb_eq in E0. subst k'.
      assert (j' = j + flen k) as ->.
      { unfold fpair in E1. cbv zeta in E1. rewrite !andb_true_iff in E1. destruct E1 as ((((_ & E1) & _) & _) & _). apply Z.eqb_eq in E1. exact E1. }
      destruct (fpair_lo k j h l E1 E2) as [A _]. cbn [srel64 den] in *. rewrite Hx, Hy, A. reflexivity.
    + destruct y as [z|b|? ?|? ?|b h l|?|?|?|?|]; try exact Logic.I. destruct b as [k' j'|s' j'|j'|s' j'|j'|j']; try exact Logic.I.
      destruct (Nat.eqb s s' && (j' =? j + slen s)) eqn:E; [|exact Logic.I].
      apply andb_true_iff in E. destruct E as [E0 E1]. apply Nat.eqb_eq in E0. apply Z.eqb_eq in E1. subst s' j'.
      destruct (Nat.eqb s 8) eqn:S8.
      * apply Nat.eqb_eq in S8. subst s. destruct (low128 j) eqn:LO; [|exact Logic.I].
        cbn [srel64 den] in *. rewrite Hx, Hy. reflexivity.
      * destruct (ipair s j) eqn:IP; [|exact Logic.I]. destruct (ipair_lo s j IP) as [A _].
        cbn [srel64]. rewrite norm_i_den, A. cbn [srel64 den] in *. rewrite Hx, Hy. reflexivity.
  - (* sub *) intros x x' y y' Hx Hy. cbn [n_sub slane64 zlane64]. unfold t_sub.
    destruct x as [z|a|? ?|? ?|? ? ?|?|a|?|?|]; try exact Logic.I.
    + destruct a as [k j|s j|j|s j|j|j]; try exact Logic.I.
      * destruct y as [z|b|? ?|? ?|b h l|?|?|?|?|]; try exact Logic.I. destruct b as [k' j'|s' j'|j'|s' j'|j'|j']; try exact Logic.I.
        destruct (Nat.eqb k k' && fpair k j j' && ftw_ok k j h l) eqn:E; [|exact Logic.I].
        rewrite !andb_true_iff in E. destruct E as [[E0 E1] E2]. apply Nat.eqb_eq in E0. subst k'.
        assert (j' = j + flen k) as ->.
        { unfold fpair in E1. cbv zeta in E1. rewrite !andb_true_iff in E1. destruct E1 as ((((_ & E1) & _) & _) & _). apply Z.eqb_eq in E1. exact E1. }
        destruct (fpair_lo k j h l E1 E2) as [_ A]. cbn [srel64 den] in *. rewrite Hx, Hy, A. reflexivity.
      * destruct y as [z|b|? ?|? ?|b h l|?|?|?|?|]; try exact Logic.I. destruct b as [k' j'|s' j'|j'|s' j'|j'|j']; try exact Logic.I.
        destruct (Nat.eqb s s' && (j' =? j + slen s)) eqn:E; [|exact Logic.I].
        apply andb_true_iff in E. destruct E as [E0 E1]. apply Nat.eqb_eq in E0. apply Z.eqb_eq in E1. subst s' j'.
        cbn [srel64 den] in *. rewrite Hx, Hy. reflexivity.
    + destruct y as [z|?|? ?|? ?|? ? ?|?|?|b|?|]; try exact Logic.I. destruct (atom64_eqb a b) eqn:E; [|exact Logic.I].
      apply atom64_eqb_eq in E. subst b. cbn [srel64] in *. rewrite Hx, Hy. reflexivity.
  - (* mul *) intros x x' y y' Hx Hy. cbn [n_mul slane64 zlane64]. unfold t_mul.
    destruct x; try exact Logic.I. destruct y; try exact Logic.I. cbn [srel64] in *. rewrite Hx, Hy. reflexivity.
  - (* rdmulh *) intros x x' y y' Hx Hy. cbn [n_rdmulh slane64 zlane64]. unfold t_rd.
    destruct x; try exact Logic.I. destruct y; try exact Logic.I. cbn [srel64] in *. rewrite Hx, Hy. reflexivity.
  - (* mls *) intros d d' x x' y y' Hd Hx Hy. cbn [n_mls slane64 zlane64]. unfold t_mls.
    destruct d as [z|a|a h|? ?|? ? ?|?|?|?|?|]; try exact Logic.I.
    + destruct a as [k j|s j|j|s j|j|j]; try exact Logic.I. destruct x as [z|?|? ?|? ?|? ? ?|b|?|?|?|]; try exact Logic.I.
      destruct y as [q|?|? ?|? ?|? ? ?|?|?|?|?|]; try exact Logic.I.
      destruct (atom64_eqb (MI s j) b && (q =? Q) && Nat.eqb s 4 && (j mod 16 <? 8)) eqn:E; [|exact Logic.I].
      rewrite !andb_true_iff in E. destruct E as [[[E0 E1] E2] E3]. apply atom64_eqb_eq in E0. apply Z.eqb_eq in E1. apply Nat.eqb_eq in E2.
      subst b q s. cbn [srel64] in *. rewrite Hd, Hx, Hy. cbn [den].
      change (ival ia 5 j) with (istage 4 (ival ia 4) j). unfold istage. cbn [Nat.eqb]. rewrite E3. reflexivity.
    + destruct x as [z|?|? ?|b l|? ? ?|?|?|?|?|]; try exact Logic.I.
      destruct y as [q|?|? ?|? ?|? ? ?|?|?|?|?|]; try exact Logic.I.
      destruct (atom64_eqb a b && (q =? Q)) eqn:E; [|exact Logic.I].
      apply andb_true_iff in E. destruct E as [E0 E1]. apply atom64_eqb_eq in E0. apply Z.eqb_eq in E1. subst b q.
      cbn [srel64] in Hd, Hx, Hy. rewrite Hd, Hx, Hy. apply norm_b_den.
  - (* mla *) intros d d' x x' y y' Hd Hx Hy. cbn [n_mla slane64 zlane64]. unfold t_mla.
    destruct d as [z|a|a h|? ?|? ? ?|?|?|?|?|]; try exact Logic.I.
    destruct a as [k j|s j|j|s j|j|j]; try exact Logic.I. destruct x as [z|?|? ?|? ?|? ? ?|?|?|?|b|]; try exact Logic.I.
    destruct y as [q|?|? ?|? ?|? ? ?|?|?|?|?|]; try exact Logic.I.
    destruct (atom64_eqb (ME j) b && (q =? Q)) eqn:E; [|exact Logic.I].
    apply andb_true_iff in E. destruct E as [E0 E1]. apply atom64_eqb_eq in E0. apply Z.eqb_eq in E1. subst b q.
    cbn [srel64 den] in *. rewrite Hd, Hx, Hy. reflexivity.
  - (* srshr *) intros n x x' Hx. cbn [n_srshr slane64 zlane64]. destruct x; try exact Logic.I.
    destruct (n =? 23) eqn:E; [|exact Logic.I]. apply Z.eqb_eq in E. subst n. cbn [srel64] in *. rewrite Hx. reflexivity.
  - (* cmge *) intros x x' y y' Hx Hy. cbn [n_cmge slane64 zlane64]. unfold t_cmge.
    destruct x as [z|a|? ?|? ?|? ? ?|?|?|?|?|]; try exact Logic.I.
    + destruct y as [q|a|? ?|? ?|? ? ?|?|?|?|?|]; try exact Logic.I. destruct (z =? - QHALF) eqn:E; [|exact Logic.I].
      apply Z.eqb_eq in E. cbn [srel64] in *. rewrite Hx, Hy, E. reflexivity.
    + destruct y as [q|?|? ?|? ?|? ? ?|?|?|?|?|]; try exact Logic.I. destruct (q =? QHALF) eqn:E; [|exact Logic.I].
      apply Z.eqb_eq in E. cbn [srel64] in *. rewrite Hx, Hy, E. reflexivity.
  - (* lsr1 *) intros x x' Hx. cbn [n_lsr1 slane64]. destruct x; try exact Logic.I. cbn [srel64] in *. rewrite Hx. reflexivity.
  - (* neg *) intros x x' Hx. cbn [n_neg slane64]. destruct x; try exact Logic.I. cbn [srel64] in *. rewrite Hx. reflexivity.
Qed.
End Denote.

(** ** The four programs, on indices *)
Definition fin64 (f : Z -> atom64) (table : list Z) : option (list (list sym64)) :=
  Some [map (fun j => TA (f j)) indices; map TC table; map TC constants64].
Lemma sym_ntt_top : srun64 ntt_top_prog ct_table (map (fun j => TA (MF 0 j)) indices) = fin64 (MF 4) ct_table.
Proof. vm_compute. reflexivity. Qed.
Lemma sym_ntt_bot : srun64 ntt_bot_prog ct_table (map (fun j => TA (MF 4 j)) indices) = fin64 (MF 8) ct_table.
Proof. vm_compute. reflexivity. Qed.
Lemma sym_intt_bot : srun64 intt_bot_prog inv_table (map (fun j => TA (MI 0 j)) indices) = fin64 (MI 5) inv_table.
Proof. vm_compute. reflexivity. Qed.
Lemma sym_intt_top : srun64 intt_top_prog inv_table (map (fun j => TA (MI 5 j)) indices) = fin64 MR inv_table.
Proof. vm_compute. reflexivity. Qed.

(** ** The calls *)
(** ntt.h 45-52, NTT.h: a call of one of the four functions with the polynomial, the table and
    [constants]; [None] if some access leaves its array. *)
Definition transform_call (p : list instr) (table : list Z) (vs : list (list Z)) (junk : list Z) (a : list Z) : option (list Z) :=
  match leave (run64 zlane64 p (enter vs [(0, 0); (1, 0); (2, 0)]%nat junk [a; table; constants64])) with
  | Some (a' :: _) => Some a'
  | _ => None
  end.
Definition read (a : list Z) (j : Z) : Z := nth (Z.to_nat j) a 0.
Lemma F2_map_l : forall {X Y Z'} (P : X -> Y -> Prop) (f : Z' -> X) (g : Z' -> Y) l, (forall z, In z l -> P (f z) (g z)) -> Forall2 P (map f l) (map g l).
Proof. induction l as [|z l IH]; intro H; cbn; constructor; [apply H; left; reflexivity|apply IH; intros; apply H; right; assumption]. Qed.
Lemma read_indices : forall a, length a = 256%nat -> map (read a) indices = a.
Proof.
  intros a L. unfold indices. rewrite map_map. apply (nth_ext _ _ 0 0); [rewrite map_length, seq_length; auto|].
  intros n Hn. rewrite map_length, seq_length in Hn. rewrite (nth_indep _ 0 (read a (Z.of_nat 0))) by (rewrite map_length, seq_length; exact Hn).
  rewrite (map_nth (fun x => read a (Z.of_nat x))), seq_nth by exact Hn. unfold read. rewrite Nat2Z.id. reflexivity.
Qed.
Lemma F2_TX : forall fa ia (l : list Z), Forall2 (srel64 fa ia) (repeat TX (length l)) l.
Proof. induction l as [|x l IH]; cbn; constructor; [exact Logic.I|exact IH]. Qed.
Lemma F2_svregs : forall fa ia vs, vregs_ok vs -> Forall2 (Forall2 (srel64 fa ia)) svregs vs.
Proof.
  intros fa ia vs [L F]. unfold svregs. rewrite <- L. clear L. induction F as [|v vs Hv F IH]; cbn [length repeat]; constructor; auto.
  cbv beta in Hv. change (Forall2 (srel64 fa ia) (repeat TX 4) v). rewrite <- Hv. apply F2_TX.
Qed.
Lemma F2_consts : forall fa ia (l : list Z), Forall2 (srel64 fa ia) (map TC l) l.
Proof. induction l as [|x l IH]; cbn; constructor; [exact eq_refl|exact IH]. Qed.
Lemma F2_den : forall fa ia (f : Z -> atom64) l m, Forall2 (srel64 fa ia) (map (fun j => TA (f j)) l) m -> m = map (fun j => den fa ia (f j)) l.
Proof.
  intros fa ia f l. induction l as [|j l IH]; intros m H; inversion H as [|x y l' m' H1 H2]; subst; cbn; [reflexivity|].
  cbn [srel64] in H1. rewrite H1, (IH _ H2) at 1. reflexivity.
Qed.
Lemma F2_head : forall {X Y} (P : X -> Y -> Prop) x l m, Forall2 P (x :: l) m -> exists y m', m = y :: m' /\ P x y.
Proof. intros X Y P x l m H. inversion H; subst. eauto. Qed.
Theorem transform_call_ok : forall p table f g fa ia vs junk a,
  srun64 p table (map (fun j => TA (f j)) indices) = fin64 g table ->
  vregs_ok vs -> length junk = 28%nat -> a = map (fun j => den fa ia (f j)) indices ->
  transform_call p table vs junk a = Some (map (fun j => den fa ia (g j)) indices).
Proof.
  intros p table f g fa ia vs junk a E HV HJ ->. unfold srun64, fin64 in E.
  assert (H0 : exists r, leave (run64 zlane64 p (enter vs [(0, 0); (1, 0); (2, 0)]%nat junk
      [map (fun j => den fa ia (f j)) indices; table; constants64])) = Some r /\
    Forall2 (Forall2 (srel64 fa ia)) [map (fun j => TA (g j)) indices; map TC table; map TC constants64] r).
  { refine (call64_R slane64 zlane64 (srel64 fa ia) (sym64_related fa ia) p svregs vs _ _ junk _ _ _ _ _ _ E).
    - apply F2_svregs. exact HV.
    - rewrite <- HJ. apply F2_TX.
    - constructor; [|constructor; [|constructor; [|constructor]]].
      + apply F2_map_l. intros. exact eq_refl.
      + apply F2_consts.
      + apply F2_consts. }
  destruct H0 as (r & E2 & H).
  unfold transform_call. rewrite E2. clear E E2. apply F2_head in H. destruct H as (y & m & -> & H1). apply F2_den in H1. rewrite H1. reflexivity.
Qed.
