(** * Base: common vocabulary of the model.

    Machine words are integers [Z] with explicit wrap-around; byte strings are
    [list Z] whose elements lie in [0,256).  A Rust panic is the value [Panic];
    a Rust [Result] is [res].  *)
From Coq Require Import ZArith List Lia Bool.
Import ListNotations.
Open Scope Z_scope.

(** A computation that may abort (a Rust panic: failed [assert!], [unwrap] of an
    error, slice index out of range, arithmetic underflow of [usize]). *)
Inductive outcome (A : Type) : Type :=
| Ret (a : A)
| Panic.
Arguments Ret {A} a.
Arguments Panic {A}.

(** A Rust [Result<A, E>]. *)
Inductive res (A E : Type) : Type :=
| Ok (a : A)
| Err (e : E).
Arguments Ok {A E} a.
Arguments Err {A E} e.

Definition obind {A B} (x : outcome A) (f : A -> outcome B) : outcome B :=
  match x with Ret a => f a | Panic => Panic end.
Notation "'let!' x ':=' e 'in' k" := (obind e (fun x => k))
  (at level 200, x pattern, e at level 100, k at level 200, right associativity).

(** [Option::unwrap]. *)
Definition unwrap {A} (x : option A) : outcome A :=
  match x with Some a => Ret a | None => Panic end.

(** [assert!(b)]. *)
Definition assert_ {A} (b : bool) (k : outcome A) : outcome A :=
  if b then k else Panic.

Notation bytes := (list Z).

Definition is_byte (x : Z) : Prop := 0 <= x < 256.
Definition is_u16 (x : Z) : Prop := 0 <= x < 65536.
Definition is_bytes (l : list Z) : Prop := Forall is_byte l.

(** Truncating conversions ([as u8], [U8::from(U16)], wrapping arithmetic). *)
Definition u8 (x : Z) : Z := x mod 256.
Definition u16 (x : Z) : Z := x mod 65536.
Definition u64 (x : Z) : Z := x mod 18446744073709551616.

(** Byte string equality, decided. *)
Fixpoint beq (a b : bytes) : bool :=
  match a, b with
  | [], [] => true
  | x :: a', y :: b' => (x =? y) && beq a' b'
  | _, _ => false
  end.

(** [slice::split_at(n)]: panics when [n > len]. *)
Definition split_at {A} (n : nat) (l : list A) : outcome (list A * list A) :=
  if (n <=? length l)%nat then Ret (firstn n l, skipn n l) else Panic.

(** [split_at(len - n)]: panics (usize underflow) when [n > len]. *)
Definition split_last {A} (n : nat) (l : list A) : outcome (list A * list A) :=
  if (n <=? length l)%nat
  then Ret (firstn (length l - n) l, skipn (length l - n) l) else Panic.

(** [slice::chunks_exact(n)]: the full chunks, the remainder is ignored. *)
Fixpoint chunks_aux {A} (fuel n : nat) (l : list A) : list (list A) :=
  match fuel with
  | O => []
  | S f => if (n <=? length l)%nat
           then firstn n l :: chunks_aux f n (skipn n l) else []
  end.
Definition chunks_exact {A} (n : nat) (l : list A) : list (list A) :=
  chunks_aux (length l) n l.

(** The x-th element of a chunk (in range by construction). *)
Definition at_ (l : list Z) (i : nat) : Z := nth i l 0.

(** Pointwise combination, stopping at the shorter list ([zip]). *)
Fixpoint map2 {A B C} (f : A -> B -> C) (a : list A) (b : list B) : list C :=
  match a, b with
  | x :: a', y :: b' => f x y :: map2 f a' b'
  | _, _ => []
  end.

(** XOR of two byte strings, the left one keeps its length when it is the shorter. *)
Definition xor_bytes (a b : bytes) : bytes := map2 Z.lxor a b.

(** A random byte stream (an [RngCore]); [draw n r] is [fill_bytes] on an n-byte
    buffer and the stream that remains. *)
Definition rng := nat -> Z.
Definition draw (n : nat) (r : rng) : bytes * rng :=
  (map (fun i => u8 (r i)) (seq 0 n), fun i => r (n + i)%nat).

(* ------------------------------------------------------------------ *)
(** ** Facts *)

Lemma beq_spec : forall a b, beq a b = true <-> a = b.
Proof.
  induction a as [|x a IH]; destruct b as [|y b]; cbn; split; intro H;
    try discriminate; auto.
  - apply andb_true_iff in H. destruct H as [H1 H2].
    apply Z.eqb_eq in H1. apply IH in H2. congruence.
  - injection H as -> ->. rewrite Z.eqb_refl. cbn. apply IH. reflexivity.
Qed.

Lemma beq_refl : forall a, beq a a = true.
Proof. intro a. apply beq_spec. reflexivity. Qed.

Lemma beq_false : forall a b, beq a b = false <-> a <> b.
Proof.
  intros a b. rewrite <- beq_spec. destruct (beq a b); split; congruence.
Qed.

Lemma u8_range : forall x, is_byte (u8 x).
Proof. intro x. unfold u8, is_byte. apply Z.mod_pos_bound. lia. Qed.

Lemma u16_range : forall x, is_u16 (u16 x).
Proof. intro x. unfold u16, is_u16. apply Z.mod_pos_bound. lia. Qed.

Lemma u8_id : forall x, is_byte x -> u8 x = x.
Proof. intros x H. unfold u8. apply Z.mod_small. exact H. Qed.

Lemma u16_id : forall x, is_u16 x -> u16 x = x.
Proof. intros x H. unfold u16. apply Z.mod_small. exact H. Qed.

Lemma split_at_app : forall {A} (a b : list A) n,
  length a = n -> split_at n (a ++ b) = Ret (a, b).
Proof.
  intros A a b n H. unfold split_at. rewrite app_length, H.
  replace (n <=? n + length b)%nat with true by (symmetry; apply Nat.leb_le; lia).
  rewrite firstn_app, skipn_app, H, Nat.sub_diag.
  rewrite <- H at 1. rewrite firstn_all, <- H, skipn_all. cbn.
  rewrite app_nil_r. reflexivity.
Qed.

Lemma split_at_inv : forall {A} n (l a b : list A),
  split_at n l = Ret (a, b) -> l = a ++ b /\ length a = n.
Proof.
  intros A n l a b H. unfold split_at in H.
  destruct (n <=? length l)%nat eqn:E; [|discriminate].
  injection H as <- <-. apply Nat.leb_le in E. split.
  - symmetry. apply firstn_skipn.
  - apply firstn_length_le. exact E.
Qed.

Lemma split_at_panic : forall {A} n (l : list A),
  split_at n l = Panic <-> (length l < n)%nat.
Proof.
  intros A n l. unfold split_at. destruct (n <=? length l)%nat eqn:E.
  - apply Nat.leb_le in E. split; [discriminate|lia].
  - apply Nat.leb_gt in E. split; auto.
Qed.

Lemma split_last_app : forall {A} (a b : list A) n,
  length b = n -> split_last n (a ++ b) = Ret (a, b).
Proof.
  intros A a b n H. unfold split_last. rewrite app_length, H.
  replace (n <=? length a + n)%nat with true by (symmetry; apply Nat.leb_le; lia).
  replace (length a + n - n)%nat with (length a) by lia.
  rewrite firstn_app, skipn_app, Nat.sub_diag, firstn_all, skipn_all. cbn.
  rewrite app_nil_r. reflexivity.
Qed.

Lemma split_last_inv : forall {A} n (l a b : list A),
  split_last n l = Ret (a, b) -> l = a ++ b /\ length b = n.
Proof.
  intros A n l a b H. unfold split_last in H.
  destruct (n <=? length l)%nat eqn:E; [|discriminate].
  injection H as <- <-. apply Nat.leb_le in E. split.
  - symmetry. apply firstn_skipn.
  - rewrite skipn_length. lia.
Qed.

Lemma split_last_panic : forall {A} n (l : list A),
  split_last n l = Panic <-> (length l < n)%nat.
Proof.
  intros A n l. unfold split_last. destruct (n <=? length l)%nat eqn:E.
  - apply Nat.leb_le in E. split; [discriminate|lia].
  - apply Nat.leb_gt in E. split; auto.
Qed.

Lemma map2_length : forall {A B C} (f : A -> B -> C) a b,
  length (map2 f a b) = Nat.min (length a) (length b).
Proof. induction a; destruct b; cbn; auto. Qed.

Lemma xor_bytes_length : forall a b,
  length (xor_bytes a b) = Nat.min (length a) (length b).
Proof. intros. apply map2_length. Qed.

Lemma xor_bytes_involutive : forall a b,
  (length a <= length b)%nat -> xor_bytes (xor_bytes a b) b = a.
Proof.
  unfold xor_bytes. induction a as [|x a IH]; intros [|y b] H; cbn in *; auto.
  - lia.
  - rewrite IH by lia. rewrite Z.lxor_assoc, Z.lxor_nilpotent, Z.lxor_0_r.
    reflexivity.
Qed.

Lemma draw_length : forall n r, length (fst (draw n r)) = n.
Proof. intros. cbn. rewrite map_length, seq_length. reflexivity. Qed.

Lemma draw_bytes : forall n r, is_bytes (fst (draw n r)).
Proof.
  intros. cbn. apply Forall_forall. intros x Hx. apply in_map_iff in Hx.
  destruct Hx as [i [<- _]]. apply u8_range.
Qed.

Lemma lxor_byte : forall a b, is_byte a -> is_byte b -> is_byte (Z.lxor a b).
Proof.
  unfold is_byte. intros a b Ha Hb. split.
  - apply Z.lxor_nonneg. lia.
  - destruct (Z.eq_dec (Z.lxor a b) 0) as [E|E]; [lia|].
    assert (0 <= Z.lxor a b) by (apply Z.lxor_nonneg; lia).
    apply (Z.log2_lt_pow2 (Z.lxor a b) 8); [lia|].
    assert (Hl := Z.log2_lxor a b). specialize (Hl ltac:(lia) ltac:(lia)).
    assert (La : Z.log2 a < 8).
    { destruct (Z.eq_dec a 0) as [->|]; [cbn; lia|]. apply Z.log2_lt_pow2; lia. }
    assert (Lb : Z.log2 b < 8).
    { destruct (Z.eq_dec b 0) as [->|]; [cbn; lia|]. apply Z.log2_lt_pow2; lia. }
    lia.
Qed.

Lemma xor_bytes_bytes : forall a b, is_bytes a -> is_bytes b -> is_bytes (xor_bytes a b).
Proof.
  unfold is_bytes, xor_bytes. induction a as [|x a IH]; intros [|y b] Ha Hb; cbn; auto.
  inversion Ha; inversion Hb; subst. constructor; [apply lxor_byte; auto|auto].
Qed.

Lemma is_bytes_app : forall a b, is_bytes (a ++ b) <-> is_bytes a /\ is_bytes b.
Proof. intros. apply Forall_app. Qed.

Lemma is_bytes_firstn : forall n l, is_bytes l -> is_bytes (firstn n l).
Proof.
  intros n l H. rewrite <- (firstn_skipn n l) in H.
  apply is_bytes_app in H. tauto.
Qed.
Lemma is_bytes_skipn : forall n l, is_bytes l -> is_bytes (skipn n l).
Proof.
  intros n l H. rewrite <- (firstn_skipn n l) in H.
  apply is_bytes_app in H. tauto.
Qed.

(** *** chunks *)
Lemma chunks_nil : forall {A} n, chunks_exact n (@nil A) = [].
Proof. reflexivity. Qed.

Lemma chunks_aux_fuel : forall {A} n (l : list A) f,
  (0 < n)%nat -> (length l <= f)%nat -> chunks_aux f n l = chunks_exact n l.
Proof.
  intros A n l f Hn. unfold chunks_exact.
  assert (forall m f1 f2 (l : list A), (length l <= m)%nat -> (length l <= f1)%nat ->
    (length l <= f2)%nat -> chunks_aux f1 n l = chunks_aux f2 n l) as G.
  { induction m as [|m IH]; intros f1 f2 l0 H0 H1 H2.
    - destruct l0; [|cbn in H0; lia].
      destruct f1, f2; cbn; auto; destruct n; cbn; auto; lia.
    - destruct l0 as [|x l0].
      + destruct f1, f2; cbn; auto; destruct n; cbn; auto; lia.
      + destruct f1; [cbn in H1; lia|]. destruct f2; [cbn in H2; lia|].
        cbn [chunks_aux]. destruct (n <=? length (x :: l0))%nat eqn:E; auto.
        f_equal. apply IH; rewrite skipn_length; cbn [length] in *; lia. }
  intro H. apply (G (length l)); lia.
Qed.

Lemma chunks_cons : forall {A} n (c l : list A),
  (0 < n)%nat -> length c = n -> chunks_exact n (c ++ l) = c :: chunks_exact n l.
Proof.
  intros A n c l Hn Hc. unfold chunks_exact at 1.
  destruct (length (c ++ l)) as [|f] eqn:E.
  - rewrite app_length in E. lia.
  - cbn [chunks_aux]. rewrite E. rewrite app_length in E.
    replace (n <=? S f)%nat with true by (symmetry; apply Nat.leb_le; lia).
    rewrite firstn_app, skipn_app, Hc, Nat.sub_diag. cbn [firstn skipn].
    rewrite <- Hc, firstn_all, skipn_all, app_nil_r. cbn [app].
    f_equal. rewrite Hc. apply chunks_aux_fuel; lia.
Qed.

(** Every list whose length is a multiple of [n] is the concatenation of its chunks. *)
Lemma chunks_concat : forall {A} n m (l : list A),
  (0 < n)%nat -> length l = (m * n)%nat ->
  concat (chunks_exact n l) = l /\ length (chunks_exact n l) = m /\
  Forall (fun c => length c = n) (chunks_exact n l).
Proof.
  intros A n m. induction m as [|m IH]; intros l Hn Hl.
  - destruct l; [|cbn in Hl; lia]. cbn. repeat split; constructor.
  - assert (Hf : length (firstn n l) = n) by (apply firstn_length_le; nia).
    rewrite <- (firstn_skipn n l). rewrite chunks_cons by auto.
    destruct (IH (skipn n l) Hn) as [H1 [H2 H3]].
    { rewrite skipn_length. nia. }
    cbn [concat length]. rewrite H1, H2. repeat split; auto.
Qed.

Lemma chunks_of_concat : forall {A} n (ls : list (list A)),
  (0 < n)%nat -> Forall (fun c => length c = n) ls -> chunks_exact n (concat ls) = ls.
Proof.
  intros A n ls Hn. induction ls as [|c ls IH]; intro H; [reflexivity|].
  inversion H; subst. cbn [concat]. rewrite chunks_cons by auto. f_equal. auto.
Qed.

Lemma Forall_chunks : forall {A} (P : A -> Prop) n m (l : list A),
  (0 < n)%nat -> length l = (m * n)%nat -> Forall P l ->
  Forall (Forall P) (chunks_exact n l).
Proof.
  intros A P n m l Hn Hl HP.
  destruct (chunks_concat n m l Hn Hl) as [H1 _].
  rewrite <- H1 in HP. clear - HP.
  induction (chunks_exact n l) as [|c cs IH]; constructor.
  - cbn in HP. apply Forall_app in HP. tauto.
  - cbn in HP. apply Forall_app in HP. tauto.
Qed.

(** Chunkwise re-encoding followed by chunkwise decoding. *)
Lemma chunks_recode : forall {A B C} n m k (f : list A -> list B) (g : list B -> list C) l,
  (0 < n)%nat -> (0 < m)%nat -> length l = (k * n)%nat ->
  (forall c, length c = n -> length (f c) = m) ->
  flat_map g (chunks_exact m (flat_map f (chunks_exact n l))) =
  flat_map (fun c => g (f c)) (chunks_exact n l).
Proof.
  intros A B C n m k f g l Hn Hm Hl Hf.
  destruct (chunks_concat n k l Hn Hl) as [_ [_ H3]].
  rewrite !flat_map_concat_map. rewrite chunks_of_concat; auto.
  - rewrite map_map. reflexivity.
  - apply Forall_map. eapply Forall_impl; [|exact H3]. exact Hf.
Qed.

Lemma flat_map_chunks_length : forall {A B} n m k (f : list A -> list B) l,
  (0 < n)%nat -> length l = (k * n)%nat ->
  (forall c, length c = n -> length (f c) = m) ->
  length (flat_map f (chunks_exact n l)) = (k * m)%nat.
Proof.
  intros A B n m k f l Hn Hl Hf.
  destruct (chunks_concat n k l Hn Hl) as [_ [H2 H3]].
  rewrite <- H2. clear - H3 Hf. induction (chunks_exact n l) as [|c cs IH]; auto.
  inversion H3; subst. cbn. rewrite app_length, IH by auto. rewrite Hf; auto.
Qed.

Lemma flat_map_ext_Forall : forall {A B} (P : A -> Prop) (f g : A -> list B) l,
  (forall x, P x -> f x = g x) -> Forall P l -> flat_map f l = flat_map g l.
Proof.
  intros A B P f g l H HP. induction HP; cbn; auto. rewrite H, IHHP; auto.
Qed.

Lemma Forall_flat_map : forall {A B} (P : A -> Prop) (Q : B -> Prop) (f : A -> list B) l,
  (forall x, P x -> Forall Q (f x)) -> Forall P l -> Forall Q (flat_map f l).
Proof.
  intros A B P Q f l H HP. induction HP; cbn; auto. apply Forall_app. auto.
Qed.
