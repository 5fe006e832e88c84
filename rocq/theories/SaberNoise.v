(** * SaberNoise: linear algebra of the KEM and the noise equation. *)
From Coq Require Import ZArith List Lia Bool.
From Verif Require Import Base Bits SaberPoly SaberCodec3 Ring SaberRing SaberKem SaberVec.
Import ListNotations.
Open Scope Z_scope.

Local Opaque star E pmul padd pzero.

Definition V (v : vec) (j : nat) : Z -> Z := E (nth j v []).
Definition dot (K : nat) (F G : nat -> Z -> Z) (k : Z) : Z :=
  lsum (fun j => star (F j) (G j) k) (seq 0 K).

Lemma nth_nth_map2 : forall {A B} (a : list A) (b : list B) K da db, length a = K -> length b = K ->
  combine a b = map (fun j => (nth j a da, nth j b db)) (seq 0 K).
Proof.
  induction a as [|x a IH]; intros [|y b] K da db Ha Hb; cbn in *; subst; try lia; [reflexivity|].
  cbn [seq map nth]. f_equal. rewrite <- seq_shift, map_map. apply IH; auto.
Qed.

Lemma fold_left_map' : forall {A B C} (f : A -> C -> A) (g : B -> C) l a,
  fold_left f (map g l) a = fold_left (fun x y => f x (g y)) l a.
Proof. induction l; intros; cbn; auto. Qed.

Lemma nth_map_in : forall {A B} (f : A -> B) l i d d', (i < length l)%nat ->
  nth i (map f l) d = f (nth i l d').
Proof.
  induction l as [|a l IH]; intros [|i] d d' H; cbn in *; try lia; auto. apply IH. lia.
Qed.

Lemma vmul_seq : forall K (a b : vec), length a = K -> length b = K ->
  vmul a b = fold_left (fun acc j => padd acc (pmul (nth j a []) (nth j b []))) (seq 0 K) pzero.
Proof.
  intros K a b Ha Hb. unfold vmul. rewrite (nth_nth_map2 a b K [] [] Ha Hb).
  rewrite fold_left_map'. reflexivity.
Qed.

Lemma fold_padd_wf : forall (T : nat -> poly) l acc,
  wf_poly acc -> (forall j, wf_poly (T j)) ->
  wf_poly (fold_left (fun acc j => padd acc (T j)) l acc).
Proof.
  induction l as [|j l IH]; intros acc Ha HT; cbn [fold_left]; auto.
  apply IH; auto. apply padd_wf; [apply Ha|apply HT].
Qed.

Lemma vmul_wf : forall a b, wf_poly (vmul a b).
Proof.
  intros a b. unfold vmul.
  assert (G : forall l acc, wf_poly acc -> wf_poly
    (fold_left (fun acc '(x, y) => padd acc (pmul x y)) l acc)).
  { induction l as [|[x y] l IH]; intros acc Ha; cbn [fold_left]; auto.
    apply IH. apply padd_wf; [apply Ha|apply pmul_wf]. }
  apply G. apply pzero_wf.
Qed.

Section Mod.
  Variable m : Z.
  Hypothesis Hm : m <> 0.
  Hypothesis Hd : (m | 65536).

  Lemma E_fold : forall (x y : nat -> poly) l acc, length acc = DEG ->
    cong m (E (fold_left (fun acc j => padd acc (pmul (x j) (y j))) l acc))
           (fun k => E acc k + lsum (fun j => star (E (x j)) (E (y j)) k) l).
  Proof.
    induction l as [|j l IH]; intros acc Ha; cbn [fold_left lsum].
    - intro k. rewrite Z.add_0_r. reflexivity.
    - assert (HL : length (padd acc (pmul (x j) (y j))) = DEG)
        by (apply (proj1 (padd_wf _ _ Ha (proj1 (pmul_wf _ _))))).
      eapply cong_trans; [apply IH; exact HL|].
      eapply cong_trans.
      { apply cong_add; [apply (E_padd m Hm Hd acc _ Ha (proj1 (pmul_wf _ _)))|apply cong_refl]. }
      eapply cong_trans.
      { apply cong_add; [|apply cong_refl]. apply cong_add; [apply cong_refl|].
        apply E_pmul; auto. }
      intro k. cbv beta. f_equal. lia.
  Qed.

  Lemma E_vmul : forall K (a b : vec), length a = K -> length b = K ->
    cong m (E (vmul a b)) (dot K (V a) (V b)).
  Proof.
    intros K a b Ha Hb. rewrite (vmul_seq K a b Ha Hb).
    eapply cong_trans; [apply E_fold; apply pzero_wf|].
    eapply cong_trans; [apply cong_add; [apply E_pzero; auto|apply cong_refl]|].
    intro k. cbv beta. rewrite Z.add_0_l. reflexivity.
  Qed.

  Lemma V_mat_mul : forall K (M : matrix) (v : vec) i, length M = K -> (forall row : vec, In row M -> length row = K) ->
    length v = K -> (i < K)%nat ->
    cong m (V (mat_mul M v) i) (dot K (V (nth i M [])) (V v)).
  Proof.
    intros K M v i HM Hrow Hv Hi. unfold V at 1, mat_mul.
    rewrite (nth_map_in (fun row => vmul row v) M i [] []) by (rewrite HM; exact Hi).
    apply E_vmul; auto. apply Hrow. apply nth_In. lia.
  Qed.

  Lemma V_mat_mul_transpose : forall K (M : matrix) (v : vec) i, length M = K -> (i < K)%nat ->
    cong m (V (mat_mul_transpose M v) i) (dot K (fun j => V (nth j M []) i) (V v)).
  Proof.
    intros K M v i HM Hi. unfold V at 1, mat_mul_transpose. rewrite HM.
    set (f := fun i => fold_left _ _ _).
    rewrite (nth_map_in f (seq 0 K) i [] 0%nat) by (rewrite seq_length; exact Hi).
    rewrite seq_nth by exact Hi. cbn [plus]. unfold f.
    eapply cong_trans; [apply E_fold; apply pzero_wf|].
    eapply cong_trans; [apply cong_add; [apply E_pzero; auto|apply cong_refl]|].
    intro k. cbv beta. rewrite Z.add_0_l. reflexivity.
  Qed.

  Lemma cong_dot : forall K F F' G G',
    (forall j, (j < K)%nat -> cong m (F j) (F' j)) ->
    (forall j, (j < K)%nat -> cong m (G j) (G' j)) ->
    cong m (dot K F G) (dot K F' G').
  Proof.
    intros K F F' G G' HF HG k. unfold dot.
    assert (HI : forall j, In j (seq 0 K) -> (j < K)%nat) by (intros j Hj; apply in_seq in Hj; lia).
    revert HI. generalize (seq 0 K). induction l as [|j l IH]; intro HI; cbn [lsum]; [reflexivity|].
    rewrite Zplus_mod, IH by (intros; apply HI; right; auto).
    rewrite (cong_star m (F j) (F' j) (G j) (G' j)) by (first [apply HF|apply HG]; apply HI; left; auto).
    rewrite <- Zplus_mod. reflexivity.
  Qed.
End Mod.

Lemma dot_anti : forall K F G, (forall j, anti (G j)) -> anti (dot K F G).
Proof.
  intros K F G HG k. unfold dot. induction (seq 0 K) as [|j l IH]; cbn [lsum]; [reflexivity|].
  rewrite (star_anti (F j) (G j) (HG j) k), IH. lia.
Qed.

Lemma lsum_add : forall f g l, lsum (fun j => f j + g j) l = lsum f l + lsum g l.
Proof. induction l; cbn [lsum]; lia. Qed.
Lemma lsum_zsum : forall n f l, lsum (fun j => zsum n (fun i => f j i)) l = zsum n (fun i => lsum (fun j => f j i) l).
Proof.
  induction l as [|j l IH]; cbn [lsum].
  - symmetry. apply zsum_0.
  - rewrite IH, zsum_add. reflexivity.
Qed.
Lemma lsum_scal_l : forall c f l, lsum (fun j => c * f j) l = c * lsum f l.
Proof. induction l; cbn [lsum]; lia. Qed.
Lemma lsum_scal_r : forall c f l, lsum (fun j => f j * c) l = lsum f l * c.
Proof. induction l; cbn [lsum]; lia. Qed.
Lemma lsum_swap : forall f l1 l2,
  lsum (fun i => lsum (fun j => f i j) l2) l1 = lsum (fun j => lsum (fun i => f i j) l1) l2.
Proof.
  induction l1 as [|i l1 IH]; intro l2; cbn [lsum].
  - induction l2; cbn [lsum]; lia.
  - rewrite IH, <- lsum_add. reflexivity.
Qed.

Local Transparent star.
Lemma star_lsum_l : forall (F : nat -> Z -> Z) G l k,
  star (fun i => lsum (fun j => F j i) l) G k = lsum (fun j => star (F j) G k) l.
Proof.
  intros F G l k. unfold star, nconv. rewrite lsum_zsum. apply zsum_ext. intros i Hi.
  rewrite lsum_scal_r. reflexivity.
Qed.
Lemma star_lsum_r : forall F (G : nat -> Z -> Z) l k,
  star F (fun i => lsum (fun j => G j i) l) k = lsum (fun j => star F (G j) k) l.
Proof.
  intros F G l k. unfold star, nconv. rewrite lsum_zsum. apply zsum_ext. intros i Hi.
  rewrite lsum_scal_l. reflexivity.
Qed.
Lemma star_comm : forall F G k, anti F -> anti G -> star F G k = star G F k.
Proof. intros. unfold star. apply nconv_comm; assumption. Qed.
Lemma star_assoc : forall F G H k, anti F -> anti G -> anti H ->
  star (star F G) H k = star F (star G H) k.
Proof. intros. unfold star. apply nconv_assoc; assumption. Qed.
Lemma star_ext : forall F F' G G' k, (forall i, F i = F' i) -> (forall i, G i = G' i) ->
  star F G k = star F' G' k.
Proof. intros. unfold star. apply nconv_ext; assumption. Qed.

Lemma star_add_l : forall F F' G k,
  star (fun i => F i + F' i) G k = star F G k + star F' G k.
Proof. intros. unfold star. apply nconv_add_l. Qed.
Lemma star_scal_l : forall c F G k, star (fun i => c * F i) G k = c * star F G k.
Proof. intros. unfold star. apply nconv_scal_l. Qed.
Local Opaque star.

(** (A s) . t = s . (A^T t), over functions. *)
Lemma dot_transpose : forall K (M : nat -> nat -> Z -> Z) s t k,
  (forall i j, anti (M i j)) -> (forall j, anti (s j)) -> (forall j, anti (t j)) ->
  dot K (fun i => dot K (M i) s) t k = dot K s (fun j => dot K (fun i => M i j) t) k.
Proof.
  intros K M s t k HM Hs Ht. unfold dot at 1 3.
  rewrite (lsum_ext _ (fun i => lsum (fun j => star (star (M i j) (s j)) (t i) k) (seq 0 K)))
    by (intros i _; unfold dot; apply star_lsum_l).
  rewrite lsum_swap. apply lsum_ext. intros j _.
  unfold dot. rewrite star_lsum_r. apply lsum_ext. intros i _.
  rewrite (star_ext (star (M i j) (s j)) (star (s j) (M i j)) (t i) (t i))
    by (intros; auto; apply star_comm; auto).
  apply star_assoc; auto.
Qed.

Lemma dot_comm : forall K F G k, (forall j, anti (F j)) -> (forall j, anti (G j)) ->
  dot K F G k = dot K G F k.
Proof. intros. unfold dot. apply lsum_ext. intros. apply star_comm; auto. Qed.
Lemma dot_add_l : forall K F F' G k,
  dot K (fun j i => F j i + F' j i) G k = dot K F G k + dot K F' G k.
Proof.
  intros. unfold dot. rewrite <- lsum_add. apply lsum_ext. intros j _. apply star_add_l.
Qed.
Lemma dot_scal_l : forall K c F G k, dot K (fun j i => c * F j i) G k = c * dot K F G k.
Proof.
  intros. unfold dot. rewrite <- lsum_scal_l. apply lsum_ext. intros j _. apply star_scal_l.
Qed.

Lemma V_anti : forall v j, anti (V v j).
Proof. intros. apply E_anti. Qed.

(** ** Rounding *)
(** The error made by adding 4 and dropping 3 bits: 8 * ((x + 4) >> 3) - x. *)
Definition rerr (x : Z) : Z := 4 - (x + 4) mod 8.
Definition rnd_poly (p : poly) : poly := pshr (padd_c p 4) 3.

Lemma rerr_range : forall x, -3 <= rerr x <= 4.
Proof. intro x. unfold rerr. pose proof (Z.mod_pos_bound (x + 4) 8). lia. Qed.

Lemma rnd_coeff : forall x, 8 * (u16 (x + 4) >> 3) mod 65536 = (x + rerr x) mod 65536.
Proof.
  intro x. rewrite Z.shiftr_div_pow2 by lia. change (2 ^ 3) with 8.
  assert (H : u16 (x + 4) mod 8 = (x + 4) mod 8) by (apply u16_mod; [lia|exists 8192; reflexivity]).
  pose proof (Z.div_mod (u16 (x + 4)) 8 ltac:(lia)) as D.
  replace (8 * (u16 (x + 4) / 8)) with (u16 (x + 4) - (x + 4) mod 8) by lia.
  unfold rerr, u16. rewrite Zminus_mod_idemp_l. f_equal. lia.
Qed.

Lemma rnd_wf : forall p, length p = DEG -> wf_poly (rnd_poly p).
Proof.
  intros p H. unfold rnd_poly, pshr, padd_c. split; [rewrite !map_length; exact H|].
  apply Forall_map, Forall_map, Forall_forall. intros x _. apply u16_shiftr; [lia|apply u16_range].
Qed.

Lemma E_rnd : forall p, length p = DEG ->
  cong 65536 (fun k => 8 * E (rnd_poly p) k) (fun k => E p k + E (map rerr p) k).
Proof.
  intros p H. apply cong_coeffs; [apply scal_anti, E_anti|apply add_anti; apply E_anti|].
  intros k Hk. rewrite !E_at by exact Hk. unfold rnd_poly, pshr, padd_c. rewrite map_map.
  rewrite !map_at by lia. apply rnd_coeff.
Qed.

Lemma cong_divide : forall m M F G, m <> 0 -> (m | M) -> cong M F G -> cong m F G.
Proof.
  intros m M F G Hm Hd H k. rewrite <- (mod_mod_divide (F k) m M), <- (mod_mod_divide (G k) m M) by auto.
  rewrite H. reflexivity.
Qed.
