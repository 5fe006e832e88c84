(** * DilSample: the rejection samplers of poly.c. *)
From Coq Require Import ZArith List Lia Bool.
From Verif Require Import Base Bits SaberPoly Ring SaberRing DilArith DilNtt DilNttProof DilNttEval DilNttSpec
  DilPoly DilPack DilCodec DilCodec2 DilOps.
Import ListNotations.
Open Scope Z_scope.

(** Never undefined; any result satisfies [P]. *)
Definition safe {A} (x : crun A) (P : A -> Prop) : Prop := x = CFuel \/ exists a, x = CRet a /\ P a.
Lemma safe_ret : forall {A} (a : A) (P : A -> Prop), P a -> safe (CRet a) P.
Proof. intros. right. eauto. Qed.
Lemma safe_ex : forall {A} (x : crun A) (P : A -> Prop), (exists a, x = CRet a /\ P a) -> safe x P.
Proof. intros. right. assumption. Qed.
Lemma safe_bind : forall {A B} (x : crun A) (f : A -> crun B) P R,
  safe x P -> (forall a, P a -> safe (f a) R) -> safe (cbind x f) R.
Proof. intros A B x f P R [->|(a & -> & Pa)] H; [left; reflexivity|]. cbn [cbind]. apply H. exact Pa. Qed.
Lemma safe_impl : forall {A} (x : crun A) (P R : A -> Prop), safe x P -> (forall a, P a -> R a) -> safe x R.
Proof. intros A x P R [->|(a & -> & Pa)] H; [left; reflexivity|right; eauto]. Qed.
Lemma safe_inv : forall {A} (x : crun A) (P : A -> Prop) a, safe x P -> x = CRet a -> P a.
Proof. intros A x P a [->|(b & -> & Pb)] E; [discriminate E|]. injection E as <-. exact Pb. Qed.
Lemma safe_mapM : forall {X Y} (f : X -> crun Y) (P : Y -> Prop) l,
  (forall x, In x l -> safe (f x) P) -> safe (mapM f l) (fun l' => length l' = length l /\ Forall P l').
Proof.
  intros X Y f P l. induction l as [|x l IH]; intro H.
  - apply safe_ret. split; [reflexivity|constructor].
  - cbn [mapM]. eapply safe_bind; [apply H; left; reflexivity|]. intros y Hy.
    eapply safe_bind; [apply IH; intros z Hz; apply H; right; exact Hz|]. intros l' [L F].
    apply safe_ret. split; [cbn; lia|constructor; auto].
Qed.

(** More budget does not change a result. *)
Definition refines {A} (x y : crun A) : Prop := forall a, x = CRet a -> y = CRet a.
Lemma refines_refl : forall {A} (x : crun A), refines x x. Proof. intros A x a H. exact H. Qed.
Lemma refines_bind : forall {A B} (x y : crun A) (f g : A -> crun B),
  refines x y -> (forall a, x = CRet a -> refines (f a) (g a)) -> refines (cbind x f) (cbind y g).
Proof.
  intros A B x y f g H G b E. destruct x as [a| |]; try discriminate E. cbn [cbind] in E.
  rewrite (H a eq_refl). cbn [cbind]. apply (G a eq_refl b E).
Qed.
Lemma refines_mapM : forall {X Y} (f g : X -> crun Y) l,
  (forall x, In x l -> refines (f x) (g x)) -> refines (mapM f l) (mapM g l).
Proof.
  intros X Y f g l. induction l as [|x l IH]; intro H; cbn [mapM]; [apply refines_refl|].
  apply refines_bind; [apply H; left; reflexivity|]. intros a _. apply refines_bind; [|intros; apply refines_refl].
  apply IH. intros y Hy. apply H. right. exact Hy.
Qed.
Lemma refines_foldM : forall {S X} (f g : S -> X -> crun S) l,
  (forall s x, refines (f s x) (g s x)) -> forall s, refines (foldM f l s) (foldM g l s).
Proof.
  intros S X f g l H. induction l as [|x l IH]; intro s; cbn [foldM]; [apply refines_refl|].
  apply refines_bind; [apply H|]. intros a _. apply IH.
Qed.

Lemma squeeze_length : forall s off n, length (squeeze s off n) = n.
Proof. intros. unfold squeeze. rewrite map_length, seq_length. reflexivity. Qed.
Lemma squeeze_bytes : forall s off n, is_bytes (squeeze s off n).
Proof. intros. unfold squeeze. apply Forall_map, Forall_forall. intros. apply u8_range. Qed.

(** ** Uniform coefficients *)
Lemma rej_uniform_ok : forall buf len, (length (rej_uniform len buf) <= len)%nat /\
  Forall (fun x => 0 <= x < Q) (rej_uniform len buf).
Proof.
  assert (G : forall n buf len, (length buf <= n)%nat -> (length (rej_uniform len buf) <= len)%nat /\
    Forall (fun x => 0 <= x < Q) (rej_uniform len buf)).
  { induction n as [|n IH]; intros buf len H.
    - destruct buf; [|cbn in H; lia]. destruct len; cbn; split; try lia; apply Forall_nil.
    - destruct buf as [|b0 r']; [destruct len; cbn; split; try lia; apply Forall_nil|].
      destruct len as [|len]; [cbn; split; [lia|apply Forall_nil]|].
      destruct r' as [|b1 [|b2 r]]; try (cbn; split; [lia|apply Forall_nil]).
      cbn [rej_uniform]. set (t := Z.land _ 8388607).
      assert (T : 0 <= t) by (apply Z.land_nonneg; right; lia).
      destruct (Z.ltb_spec t Q).
      + destruct (IH r len) as [A B]; [cbn in H; lia|]. cbn. split; [lia|constructor; auto].
      + apply (IH r (S len)). cbn in H. lia. }
  intros buf len. apply (G (length buf)). lia.
Qed.
Lemma uniform_loop_ok : forall fuel s acc buf pos, (length acc <= 256)%nat -> Forall (fun x => 0 <= x < Q) acc ->
  safe (uniform_loop fuel s acc buf pos) (fun a => length a = 256%nat /\ Forall (fun x => 0 <= x < Q) a).
Proof.
  induction fuel as [|f IH]; intros s acc buf pos L F; cbn [uniform_loop];
    destruct (Nat.ltb_spec (length acc) 256).
  - left. reflexivity.
  - apply safe_ret. split; [lia|exact F].
  - pose proof (rej_uniform_ok (skipn (length buf - length buf mod 3) buf ++ squeeze s pos SHAKE128_RATE)
      (256 - length acc)) as [A B].
    apply IH; [rewrite app_length; lia|apply Forall_app; auto].
  - apply safe_ret. split; [lia|exact F].
Qed.
Theorem poly_uniform_ok : forall fuel X seed nonce,
  safe (poly_uniform fuel X seed nonce) (fun a => length a = 256%nat /\ Forall (fun x => 0 <= x < Q) a).
Proof.
  intros. unfold poly_uniform. apply uniform_loop_ok; apply rej_uniform_ok.
Qed.
Lemma uniform_loop_mono : forall f f' s acc buf pos, (f <= f')%nat ->
  refines (uniform_loop f s acc buf pos) (uniform_loop f' s acc buf pos).
Proof.
  induction f as [|f IH]; intros f' s acc buf pos H a E.
  - cbn [uniform_loop] in E. destruct f'; cbn [uniform_loop]; destruct (_ <? _)%nat; try discriminate E; exact E.
  - destruct f' as [|f']; [lia|]. cbn [uniform_loop] in *. destruct (_ <? _)%nat; [|exact E].
    eapply IH; [|exact E]. lia.
Qed.
Lemma poly_uniform_mono : forall f f' X seed nonce, (f <= f')%nat ->
  refines (poly_uniform f X seed nonce) (poly_uniform f' X seed nonce).
Proof. intros. unfold poly_uniform. apply uniform_loop_mono. assumption. Qed.

(** ** Small coefficients *)
Lemma eta_of_ok : forall t, 0 <= t -> Forall (fun x => -2 <= x <= 2) (eta_of t).
Proof.
  intros t H. unfold eta_of. destruct (Z.ltb_spec t 15); [|constructor]. constructor; [|constructor].
  assert (C : t = 0 \/ t = 1 \/ t = 2 \/ t = 3 \/ t = 4 \/ t = 5 \/ t = 6 \/ t = 7 \/ t = 8 \/ t = 9 \/ t = 10 \/
    t = 11 \/ t = 12 \/ t = 13 \/ t = 14) by lia.
  repeat (destruct C as [-> | C]; [cbn; lia|]). subst. cbn. lia.
Qed.
Lemma rej_eta_ok : forall buf len, is_bytes buf -> (length (rej_eta len buf) <= len)%nat /\
  Forall (fun x => -2 <= x <= 2) (rej_eta len buf).
Proof.
  induction buf as [|b r IH]; intros len Hb; [cbn; split; [lia|constructor]|].
  inversion Hb as [|? ? B R]; subst. cbn [rej_eta]. destruct (Nat.eqb_spec len 0); [cbn; split; [lia|constructor]|].
  set (l := firstn len (eta_of (Z.land b 15) ++ eta_of (Z.shiftr b 4))).
  assert (L : (length l <= len)%nat) by (unfold l; rewrite firstn_length; lia).
  assert (F : Forall (fun x => -2 <= x <= 2) l).
  { unfold l. apply Forall_forall. intros x Hx.
    assert (G : Forall (fun x => -2 <= x <= 2) (eta_of (Z.land b 15) ++ eta_of (Z.shiftr b 4))).
    { apply Forall_app. unfold is_byte in B. split; apply eta_of_ok; [apply Z.land_nonneg; lia|apply Z.shiftr_nonneg; lia]. }
    rewrite Forall_forall in G. apply G.
    rewrite <- (firstn_skipn len (eta_of (Z.land b 15) ++ eta_of (Z.shiftr b 4))). apply in_or_app. left. exact Hx. }
  destruct (IH (len - length l)%nat R) as [A C]. rewrite app_length. split; [lia|]. apply Forall_app. auto.
Qed.
Lemma eta_loop_ok : forall fuel s acc pos, (length acc <= 256)%nat -> Forall (fun x => -2 <= x <= 2) acc ->
  safe (eta_loop fuel s acc pos) (fun a => length a = 256%nat /\ Forall (fun x => -2 <= x <= 2) a).
Proof.
  induction fuel as [|f IH]; intros s acc pos L F; cbn [eta_loop]; destruct (Nat.ltb_spec (length acc) 256).
  - left. reflexivity.
  - apply safe_ret. split; [lia|exact F].
  - pose proof (rej_eta_ok (squeeze s pos SHAKE256_RATE) (256 - length acc) (squeeze_bytes _ _ _)) as [A B].
    apply IH; [rewrite app_length; lia|apply Forall_app; auto].
  - apply safe_ret. split; [lia|exact F].
Qed.
Theorem poly_uniform_eta_ok : forall fuel X seed nonce,
  safe (poly_uniform_eta fuel X seed nonce) (fun a => length a = 256%nat /\ Forall (fun x => -2 <= x <= 2) a).
Proof. intros. unfold poly_uniform_eta. apply eta_loop_ok; apply rej_eta_ok, squeeze_bytes. Qed.
Lemma eta_loop_mono : forall f f' s acc pos, (f <= f')%nat ->
  refines (eta_loop f s acc pos) (eta_loop f' s acc pos).
Proof.
  induction f as [|f IH]; intros f' s acc pos H a E.
  - cbn [eta_loop] in E. destruct f'; cbn [eta_loop]; destruct (_ <? _)%nat; try discriminate E; exact E.
  - destruct f' as [|f']; [lia|]. cbn [eta_loop] in *. destruct (_ <? _)%nat; [|exact E].
    eapply IH; [|exact E]. lia.
Qed.
Lemma poly_uniform_eta_mono : forall f f' X seed nonce, (f <= f')%nat ->
  refines (poly_uniform_eta f X seed nonce) (poly_uniform_eta f' X seed nonce).
Proof. intros. unfold poly_uniform_eta. apply eta_loop_mono. assumption. Qed.

(** ** The mask: no rejection, all of the range of 18 bits *)
Theorem poly_uniform_gamma1_ok : forall X seed nonce,
  length (poly_uniform_gamma1 X seed nonce) = 256%nat /\ Forall z_range (poly_uniform_gamma1 X seed nonce).
Proof.
  intros. unfold poly_uniform_gamma1. split; [|apply polyz_unpack_range].
  apply polyz_unpack_length. rewrite firstn_length, squeeze_length. reflexivity.
Qed.

(** ** The challenge *)
(** Number of non-zero coefficients when all are -1, 0 or 1. *)
Definition ternary (x : Z) : Prop := x = -1 \/ x = 0 \/ x = 1.
Definition weight (a : poly) : Z := zlist_sum (map Z.abs a).
Lemma weight_upd : forall a k v, (k < length a)%nat -> weight (upd a k v) = weight a - Z.abs (at_ a k) + Z.abs v.
Proof.
  induction a as [|x a IH]; intros k v H; [cbn in H; lia|].
  destruct k; cbn [upd].
  - unfold weight. cbn. lia.
  - specialize (IH k v ltac:(cbn in H; lia)). unfold weight in *. cbn [map zlist_sum fold_right] in *.
    unfold zlist_sum in *. change (at_ (x :: a) (S k)) with (at_ a k). lia.
Qed.
Lemma upd_Forall : forall (P : Z -> Prop) a k v, Forall P a -> P v -> Forall P (upd a k v).
Proof.
  induction a as [|x a IH]; intros k v F Pv; cbn; [constructor|]. inversion F; subst. destruct k; constructor; auto.
Qed.
Lemma draw_le_ok : forall fuel s pos i, safe (draw_le fuel s pos i) (fun bp => 0 <= fst bp <= i).
Proof.
  induction fuel as [|f IH]; intros s pos i; cbn [draw_le]; [left; reflexivity|].
  pose proof (u8_range (s pos)) as B. unfold is_byte in B. destruct (Z.ltb_spec i (u8 (s pos))); [apply IH|].
  apply safe_ret. cbn. lia.
Qed.
Lemma draw_le_mono : forall f f' s pos i, (f <= f')%nat -> refines (draw_le f s pos i) (draw_le f' s pos i).
Proof.
  induction f as [|f IH]; intros f' s pos i H a E; [discriminate E|].
  destruct f' as [|f']; [lia|]. cbn [draw_le] in *. destruct (i <? u8 (s pos)); [|exact E].
  eapply IH; [|exact E]. lia.
Qed.
(** State of the shuffle before step [i]: only positions below [i] are set. *)
Definition chal_inv (i : nat) (w : Z) (c : poly) : Prop :=
  length c = 256%nat /\ Forall ternary c /\ weight c = w /\ (forall j, (i <= j)%nat -> at_ c j = 0).
Lemma challenge_step_ok : forall fuel s c signs pos i w, (i < 256)%nat -> chal_inv i w c ->
  safe (challenge_step fuel s (c, signs, pos) i) (fun st => chal_inv (S i) (w + 1) (fst (fst st))).
Proof.
  intros fuel s c signs pos i w Hi (L & F & W & Z0). unfold challenge_step.
  eapply safe_bind; [apply draw_le_ok|]. intros [b pos'] Hb. cbn [fst] in Hb. apply safe_ret. cbn [fst].
  set (k := Z.to_nat b). assert (Hk : (k <= i)%nat) by (unfold k; lia).
  set (v := 1 - 2 * Z.land signs 1).
  assert (Hv : v = 1 \/ v = -1).
  { unfold v. pose proof (land_mask_mod signs 1 ltac:(lia)) as M. change (2 ^ 1 - 1) with 1 in M. change (2 ^ 1) with 2 in M.
    rewrite M. pose proof (Z.mod_pos_bound signs 2 ltac:(lia)). lia. }
  assert (A : ternary (at_ c k)) by (rewrite Forall_forall in F; apply F; apply nth_In; lia).
  split; [rewrite !upd_length; exact L|]. split.
  { apply upd_Forall; [apply upd_Forall; [exact F|exact A]|]. unfold ternary. lia. }
  split.
  - rewrite weight_upd by (rewrite upd_length; lia). rewrite weight_upd by lia. rewrite (Z0 i) by lia.
    destruct (Nat.eq_dec k i) as [->|N].
    + rewrite at_upd_eq by lia. rewrite (Z0 i) by lia. lia.
    + rewrite at_upd_neq by auto. lia.
  - intros j Hj. rewrite !at_upd_neq by lia. apply Z0. lia.
Qed.
Lemma weight_zero : weight (repeat 0 256) = 0. Proof. reflexivity. Qed.
Theorem poly_challenge_ok : forall fuel X seed,
  safe (poly_challenge fuel X seed) (fun c => length c = 256%nat /\ Forall ternary c /\ weight c = 39).
Proof.
  intros fuel X seed. unfold poly_challenge. set (s := shake256 X (firstn 32 seed)).
  assert (G : forall n i w st, (i + n <= 256)%nat -> chal_inv i w (fst (fst st)) ->
    safe (foldM (challenge_step fuel s) (seq i n) st) (fun st' => chal_inv (i + n) (w + Z.of_nat n) (fst (fst st')))).
  { induction n as [|n IH]; intros i w st Hn I.
    - cbn [seq foldM]. apply safe_ret. rewrite Nat.add_0_r, Z.add_0_r. exact I.
    - cbn [seq foldM]. destruct st as [[c signs] pos]. cbn [fst] in I.
      eapply safe_bind; [apply (challenge_step_ok fuel s c signs pos i w); [lia|exact I]|].
      intros st' I'. eapply safe_impl; [apply (IH (S i) (w + 1) st'); [lia|exact I']|].
      intros st'' I''. cbv beta in *.
      replace (i + S n)%nat with (S i + n)%nat by lia. replace (w + Z.of_nat (S n)) with (w + 1 + Z.of_nat n) by lia.
      exact I''. }
  eapply safe_bind.
  - apply (G TAU (256 - TAU)%nat 0); [unfold TAU; lia|]. cbn [fst].
    split; [apply repeat_length|]. split; [apply Forall_forall; intros x Hx; apply repeat_spec in Hx; right; left; exact Hx|].
    split; [exact weight_zero|]. intros j _. unfold at_. apply nth_repeat.
  - intros [[c signs] pos] (L & F & W & _). cbn [fst] in *. apply safe_ret. auto.
Qed.
Lemma poly_challenge_mono : forall f f' X seed, (f <= f')%nat ->
  refines (poly_challenge f X seed) (poly_challenge f' X seed).
Proof.
  intros f f' X seed H. unfold poly_challenge. apply refines_bind; [|intros; apply refines_refl].
  apply refines_foldM. intros [[c signs] pos] i. unfold challenge_step.
  apply refines_bind; [apply draw_le_mono; exact H|]. intros. apply refines_refl.
Qed.

(** ** Matrix and vectors *)
Lemma Forall_nth' : forall {A} (P : A -> Prop) l d i, Forall P l -> (i < length l)%nat -> P (nth i l d).
Proof. intros A P l d i F H. rewrite Forall_forall in F. apply F. apply nth_In. exact H. Qed.
Theorem matrix_expand_ok : forall fuel X rho, safe (polyvec_matrix_expand fuel X rho) matrix.
Proof.
  intros. unfold polyvec_matrix_expand.
  eapply safe_impl; [apply (safe_mapM _ (vec std))|].
  - intros i _. eapply safe_impl; [apply (safe_mapM _ std)|].
    + intros j _. eapply safe_impl; [apply poly_uniform_ok|]. intros a [L F]. split; [exact L|].
      exact (proj1 (pol_Forall (fun x => 0 <= x < Q) a L) F).
    + intros v [L F]. rewrite seq_length in L. split; [exact L|]. intros k Hk. apply (Forall_nth' _ _ [] k F). lia.
  - intros m [L F]. rewrite seq_length in L. split; [exact L|]. intros k Hk. apply (Forall_nth' _ _ [] k F). lia.
Qed.
Lemma matrix_expand_mono : forall f f' X rho, (f <= f')%nat ->
  refines (polyvec_matrix_expand f X rho) (polyvec_matrix_expand f' X rho).
Proof.
  intros. unfold polyvec_matrix_expand. apply refines_mapM. intros i _. apply refines_mapM. intros j _.
  apply poly_uniform_mono. assumption.
Qed.
Theorem uniform_eta_vec_ok : forall fuel X seed nonce, safe (polyvec_uniform_eta fuel X seed nonce) (vec (pol 2)).
Proof.
  intros. unfold polyvec_uniform_eta. eapply safe_impl; [apply (safe_mapM _ (pol 2))|].
  - intros i _. eapply safe_impl; [apply poly_uniform_eta_ok|]. intros a [L F]. split; [exact L|].
    intros p Hp. pose proof (proj1 (pol_Forall _ a L) F p Hp) as B. cbv beta in B. lia.
  - intros v [L F]. rewrite seq_length in L. split; [exact L|]. intros k Hk. apply (Forall_nth' _ _ [] k F). lia.
Qed.
Lemma uniform_eta_vec_mono : forall f f' X seed nonce, (f <= f')%nat ->
  refines (polyvec_uniform_eta f X seed nonce) (polyvec_uniform_eta f' X seed nonce).
Proof.
  intros. unfold polyvec_uniform_eta. apply refines_mapM. intros i _. apply poly_uniform_eta_mono. assumption.
Qed.
