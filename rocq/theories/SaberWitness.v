(** * SaberWitness: concrete key pairs and ciphertexts with known noise.

    A has one non-zero entry a = 4 + 4x + ... + 4x^(n-1), the secret is 1 and the encryption
    secret is mu/2 times (1 + x + ... + x^255).  Used to show that hypotheses can be met and
    for the LightSaber decryption failure. *)
From Coq Require Import ZArith List Lia Bool Arith.
From Verif Require Import Base Bits SaberPoly SaberCodec2 SaberCodec3 Ring SaberRing SaberKem
  SaberVec SaberNoise SaberSpec SaberDec SaberDec2 SaberFacts.
Import ListNotations.
Open Scope Z_scope.

Lemma map_repeat : forall {A B} (f : A -> B) x n, map f (repeat x n) = repeat (f x) n.
Proof. intros A B f x n. induction n as [|n IH]; cbn [repeat map]; [reflexivity|rewrite IH; reflexivity]. Qed.

Definition zpoly : poly := repeat 0 256.
Definition runs (n : nat) (c : Z) : poly := repeat c n ++ repeat 0 (256 - n).
Definition single (K : nat) (p : poly) : vec := p :: repeat zpoly (K - 1).
Definition wit_matrix (K : nat) (a : poly) : matrix := single K a :: repeat (repeat zpoly K) (K - 1).
Definition pone : poly := runs 1 1.

Lemma nth_repeat_any : forall {A} (x d : A) n j, nth j (repeat x n) d = x \/ nth j (repeat x n) d = d.
Proof.
  intros A x d n j. destruct (nth_in_or_default j (repeat x n) d) as [H|H]; [left|right; exact H].
  apply repeat_spec in H. exact H.
Qed.
Lemma E_zero : forall p k, (forall j, at_ p j = 0) -> E p k = 0.
Proof.
  intros p k H. unfold E, ext. specialize (H (Z.to_nat (k mod Z.of_nat DEG))). unfold at_ in H. rewrite H. lia.
Qed.
Lemma E_zpoly : forall k, E zpoly k = 0.
Proof. intro k. apply E_zero. intro j. unfold at_, zpoly. apply nth_repeat. Qed.
Lemma E_nil : forall k, E [] k = 0.
Proof. intro k. apply E_zero. intro j. destruct j; reflexivity. Qed.

Lemma V_single_S : forall K p j k, V (single K p) (S j) k = 0.
Proof.
  intros K p j k. unfold V, single. cbn [nth].
  destruct (nth_repeat_any zpoly [] (K - 1) j) as [->| ->]; [apply E_zpoly|apply E_nil].
Qed.
Lemma V_single_0 : forall K p, V (single K p) 0 = E p.
Proof. reflexivity. Qed.

Lemma star_zero_l : forall F G k, (forall i, F i = 0) -> star F G k = 0.
Proof.
  intros F G k H. unfold star, nconv. rewrite (zsum_ext DEG _ (fun _ => 0)); [apply zsum_0|].
  intros i _. rewrite H. lia.
Qed.
Local Opaque star E pmul padd pzero.
Lemma dot_single_l : forall K F G k, (0 < K)%nat -> (forall j i, F (S j) i = 0) ->
  dot K F G k = star (F O) (G O) k.
Proof.
  intros K F G k HK H. destruct K as [|K]; [lia|]. unfold dot. cbn [seq lsum].
  rewrite <- seq_shift.
  assert (Z0 : forall l, lsum (fun j => star (F j) (G j) k) (map S l) = 0).
  { induction l as [|j l IH]; cbn [map lsum]; auto. rewrite IH.
    rewrite star_zero_l by apply H. reflexivity. }
  rewrite Z0. lia.
Qed.
Lemma dot_single_r : forall K F G k, (0 < K)%nat -> (forall j, anti (F j)) -> (forall j, anti (G j)) ->
  (forall j i, G (S j) i = 0) ->
  dot K F G k = star (F O) (G O) k.
Proof.
  intros K F G k HK HF HG H. rewrite dot_comm by assumption. rewrite dot_single_l by assumption.
  apply star_comm; auto.
Qed.

Local Transparent star E.
Lemma star_one : forall G k, anti G -> star (E pone) G k = G k.
Proof.
  intros G k HG. unfold star, nconv.
  rewrite (zsum_single DEG _ 0); [|unfold DEG; lia|].
  - unfold E. rewrite ext_in by (unfold DEG; lia). cbn [Z.to_nat nth pone runs repeat app].
    rewrite Z.sub_0_r. lia.
  - intros i Hi Ni. unfold E. rewrite ext_in by exact Hi.
    assert (N : nth (Z.to_nat i) pone 0 = 0).
    { unfold pone, runs. replace (Z.to_nat i) with (S (Z.to_nat (i - 1))) by lia.
      cbn [repeat app nth]. destruct (nth_repeat_any 0 0 (256 - 1) (Z.to_nat (i - 1))) as [X|X]; exact X. }
    rewrite N. lia.
Qed.
Local Opaque star E.
Lemma star_one_r : forall F k, anti F -> star F (E pone) k = F k.
Proof. intros F k HF. rewrite star_comm by (auto; apply E_anti). apply star_one. exact HF. Qed.

Lemma poly_of_E : forall p f, length p = 256%nat -> (forall k, (k < 256)%nat -> f k = E p (Z.of_nat k)) ->
  map f (seq 0 256) = p.
Proof.
  intros p f L H. apply poly_ext; [rewrite map_length, seq_length; auto|].
  rewrite map_length, seq_length. intros k Hk. unfold at_.
  rewrite (nth_map_in f (seq 0 256) k 0 0%nat) by (rewrite seq_length; exact Hk).
  rewrite seq_nth by exact Hk. cbn [plus]. rewrite H by exact Hk. rewrite E_at by exact Hk. reflexivity.
Qed.

Section Wit.
  Variables (K : nat) (a sg : poly).
  Hypothesis HK : (0 < K)%nat.
  Hypothesis La : length a = 256%nat.
  Let A := wit_matrix K a.
  Let s := single K pone.
  Let t := single K sg.

  Lemma wit_noise : forall k, (k < 256)%nat ->
    noise K A s t k = star (E (map round_err a)) (E sg) (Z.of_nat k)
                      - round_err (star (E a) (E sg) (Z.of_nat k)).
  Proof.
    intros k Hk. unfold noise. rewrite !zdot_dot by exact Hk.
    rewrite (dot_single_r K _ (V t)) by (auto; try (intro; apply V_anti); intros; apply V_single_S).
    rewrite (dot_single_r K _ (V s)) by (auto; try (intro; apply V_anti); intros; apply V_single_S).
    unfold t at 1, s at 2. rewrite !V_single_0. rewrite star_one_r by apply V_anti.
    assert (Z1 : nth 0 (map (map round_err) (zmat K A s)) [] = map round_err a).
    { unfold zmat. rewrite (nth_map_in (map round_err) _ 0 [] [])
        by (rewrite map_length, seq_length; exact HK).
      rewrite (nth_map_in _ (seq 0 K) 0 [] 0%nat) by (rewrite seq_length; exact HK).
      rewrite seq_nth by exact HK. f_equal. apply poly_of_E; auto. intros i Hi.
      rewrite zdot_dot by exact Hi. cbn [nth plus A wit_matrix].
      rewrite dot_single_l by (auto; intros; apply V_single_S). unfold s.
      rewrite !V_single_0. apply star_one_r. apply E_anti. }
    assert (Z2 : nth 0 (map (map round_err) (zmat K (ztranspose K A) t)) []
                 = map (fun k => round_err (star (E a) (E sg) (Z.of_nat k))) (seq 0 256)).
    { unfold zmat. rewrite (nth_map_in (map round_err) _ 0 [] [])
        by (rewrite map_length, seq_length; exact HK).
      rewrite (nth_map_in _ (seq 0 K) 0 [] 0%nat) by (rewrite seq_length; exact HK).
      rewrite seq_nth by exact HK. rewrite map_map. apply map_ext_in. intros i Hi.
      apply in_seq in Hi. f_equal. rewrite zdot_dot by lia. cbn [plus].
      rewrite dot_single_r by (auto; try (intro; apply V_anti); intros; apply V_single_S).
      apply star_ext; [|reflexivity]. intro z. rewrite V_transpose by exact HK. reflexivity. }
    unfold V at 1 2. rewrite Z1, Z2. f_equal. rewrite E_at by exact Hk. unfold at_.
    rewrite (nth_map_in _ (seq 0 256) k 0 0%nat) by (rewrite seq_length; exact Hk).
    rewrite seq_nth by exact Hk. reflexivity.
  Qed.
End Wit.

(** Product of a short run with the constant polynomial. *)
Local Transparent star E.
Lemma zsum_trunc : forall d n f, (forall i, Z.of_nat n <= i < Z.of_nat (n + d) -> f i = 0) ->
  zsum (n + d) f = zsum n f.
Proof.
  induction d as [|d IH]; intros n f H; [rewrite Nat.add_0_r; reflexivity|].
  rewrite Nat.add_succ_r. cbn [zsum]. rewrite IH by (intros; apply H; lia).
  rewrite (H (Z.of_nat (n + d))) by lia. lia.
Qed.
Lemma star_runs : forall n c sg k, (n <= 256)%nat ->
  star (E (runs n c)) (E sg) k = zsum n (fun i => c * ext 256 sg (k - i)).
Proof.
  intros n c sg k Hn. unfold star, nconv. change DEG with 256%nat.
  replace 256%nat with (n + (256 - n))%nat at 1 by lia. rewrite zsum_trunc.
  - apply zsum_ext. intros i Hi. f_equal. unfold E. change DEG with 256%nat. rewrite ext_in by lia.
    unfold runs. rewrite app_nth1 by (rewrite repeat_length; lia).
    rewrite nth_indep with (d' := c) by (rewrite repeat_length; lia). apply nth_repeat.
  - intros i Hi. unfold E. change DEG with 256%nat. rewrite ext_in by lia.
    unfold runs. rewrite app_nth2 by (rewrite repeat_length; lia).
    rewrite nth_repeat. lia.
Qed.
Local Opaque star E.

Lemma runs_length : forall n c, (n <= 256)%nat -> length (runs n c) = 256%nat.
Proof. intros. unfold runs. rewrite app_length, !repeat_length. lia. Qed.
Lemma round_err_runs : forall n, map round_err (runs n 4) = runs n 4.
Proof.
  intro n. unfold runs. rewrite map_app, !map_repeat. reflexivity.
Qed.

(** Closed form of the noise for the witness. *)
Definition wit_x (n : nat) (c : Z) (k : nat) : Z :=
  zsum n (fun i => 4 * ext 256 (repeat c 256) (Z.of_nat k - i)).
Lemma wit_noise_closed : forall K n c k, (0 < K)%nat -> (n <= 256)%nat -> (k < 256)%nat ->
  noise K (wit_matrix K (runs n 4)) (single K pone) (single K (repeat c 256)) k
  = wit_x n c k - round_err (wit_x n c k).
Proof.
  intros K n c k HK Hn Hk. rewrite wit_noise by (auto; apply runs_length; exact Hn).
  rewrite round_err_runs. rewrite !star_runs by exact Hn. reflexivity.
Qed.

(** ** Hash functions producing the witness *)
Definition wit_prims (I : saber_impl) (n : nat) (pat : bytes) : saber_prims := {|
  shake128 := fun x i =>
    match hd 0 x with
    | 0 => nth i (read_bytes_13bit (runs n 4)) 0
    | 1 => nth i [1] 0
    | _ => if (i <? 64 * cbd_block I)%nat then nth (i mod cbd_block I) pat 0 else 0
    end;
  sha3_256_stream := fun x i => nth i x 0;
  sha3_512_stream := fun x i => 2 |}.

Definition light_wit : saber_prims := wit_prims LightSaber 52 [31; 124; 240; 193; 7].
Definition saber_wit : saber_prims := wit_prims Saber 52 [15; 15; 15; 15].
Definition fire_wit : saber_prims := wit_prims FireSaber 52 [199; 113; 28].

Lemma light_A : gen_matrix light_wit LightSaber (repeat 0 32) = wit_matrix 2 (runs 52 4).
Proof. vm_compute. reflexivity. Qed.
Lemma light_s : gen_secret light_wit LightSaber (repeat 1 32) = single 2 pone.
Proof. vm_compute. reflexivity. Qed.
Lemma light_t : gen_secret light_wit LightSaber (repeat 2 32) = single 2 (repeat 5 256).
Proof. vm_compute. reflexivity. Qed.
Lemma saber_A : gen_matrix saber_wit Saber (repeat 0 32) = wit_matrix 3 (runs 52 4).
Proof. vm_compute. reflexivity. Qed.
Lemma saber_s : gen_secret saber_wit Saber (repeat 1 32) = single 3 pone.
Proof. vm_compute. reflexivity. Qed.
Lemma saber_t : gen_secret saber_wit Saber (repeat 2 32) = single 3 (repeat 4 256).
Proof. vm_compute. reflexivity. Qed.
Lemma fire_A : gen_matrix fire_wit FireSaber (repeat 0 32) = wit_matrix 4 (runs 52 4).
Proof. vm_compute. reflexivity. Qed.
Lemma fire_s : gen_secret fire_wit FireSaber (repeat 1 32) = single 4 pone.
Proof. vm_compute. reflexivity. Qed.
Lemma fire_t : gen_secret fire_wit FireSaber (repeat 2 32) = single 4 (repeat 3 256).
Proof. vm_compute. reflexivity. Qed.

Lemma signed_single : forall K p q, map signed16 p = q -> map signed16 zpoly = zpoly ->
  map (map signed16) (single K p) = single K q.
Proof. intros K p q H1 H2. unfold single. cbn [map]. rewrite map_repeat, H1, H2. reflexivity. Qed.
Lemma signed_zpoly : map signed16 zpoly = zpoly.
Proof. unfold zpoly. rewrite map_repeat. reflexivity. Qed.
Lemma signed_pone : map signed16 pone = pone.
Proof. unfold pone, runs. rewrite map_app, !map_repeat. reflexivity. Qed.

Lemma wit_enc_noise : forall h I n c k, (0 < sK I)%nat -> (n <= 256)%nat -> (k < 256)%nat -> 0 <= c < 32768 ->
  gen_matrix h I (repeat 0 32) = wit_matrix (sK I) (runs n 4) ->
  gen_secret h I (repeat 1 32) = single (sK I) pone ->
  gen_secret h I (repeat 2 32) = single (sK I) (repeat c 256) ->
  enc_noise h I (repeat 0 32) (repeat 1 32) (repeat 2 32) k = wit_x n c k - round_err (wit_x n c k).
Proof.
  intros h I n c k HK Hn Hk Hc HA Hs Ht. unfold enc_noise. rewrite HA, Hs, Ht.
  rewrite (signed_single (sK I) pone pone signed_pone signed_zpoly).
  rewrite (signed_single (sK I) (repeat c 256) (repeat c 256)); [|rewrite map_repeat; f_equal|apply signed_zpoly].
  - apply wit_noise_closed; assumption.
  - unfold signed16. destruct (Z.ltb_spec c 32768); lia.
Qed.

Definition wit_ok (n : nat) (c : Z) (bound : Z) : bool :=
  forallb (fun k => let x := wit_x n c k in Z.abs (x - round_err x) <=? bound) (seq 0 256).
Lemma wit_ok_spec : forall n c bound k, wit_ok n c bound = true -> (k < 256)%nat ->
  Z.abs (wit_x n c k - round_err (wit_x n c k)) <= bound.
Proof.
  intros n c bound k H Hk. unfold wit_ok in H. rewrite forallb_forall in H.
  assert (Hin : In k (seq 0 256)) by (apply in_seq; lia).
  specialize (H k Hin). cbv zeta in H. apply Z.leb_le in H. exact H.
Qed.

Lemma light_noise_small : forall k, (k < 256)%nat ->
  Z.abs (enc_noise light_wit LightSaber (repeat 0 32) (repeat 1 32) (repeat 2 32) k) <= 1040.
Proof.
  intros k Hk. rewrite (wit_enc_noise light_wit LightSaber 52 5 k); cbn [sK LightSaber]; try lia.
  - apply wit_ok_spec; [|exact Hk]. vm_compute. reflexivity.
  - apply light_A. - apply light_s. - apply light_t.
Qed.
Lemma saber_noise_small : forall k, (k < 256)%nat ->
  Z.abs (enc_noise saber_wit Saber (repeat 0 32) (repeat 1 32) (repeat 2 32) k) <= 832.
Proof.
  intros k Hk. rewrite (wit_enc_noise saber_wit Saber 52 4 k); cbn [sK Saber]; try lia.
  - apply wit_ok_spec; [|exact Hk]. vm_compute. reflexivity.
  - apply saber_A. - apply saber_s. - apply saber_t.
Qed.
Lemma fire_noise_small : forall k, (k < 256)%nat ->
  Z.abs (enc_noise fire_wit FireSaber (repeat 0 32) (repeat 1 32) (repeat 2 32) k) <= 624.
Proof.
  intros k Hk. rewrite (wit_enc_noise fire_wit FireSaber 52 3 k); cbn [sK FireSaber]; try lia.
  - apply wit_ok_spec; [|exact Hk]. vm_compute. reflexivity.
  - apply fire_A. - apply fire_s. - apply fire_t.
Qed.

(** ** The LightSaber failure *)
Definition ones_msg : bytes := repeat 255 32.

Local Opaque gen_matrix gen_secret noise.
Lemma light_pk_vec : V (pk_vec (fst (indcpa_keypair light_wit LightSaber (repeat 0 32) (repeat 1 32)))) 0
  = E (runs 52 1).
Proof.
  unfold indcpa_keypair. cbn [fst pk_vec]. rewrite light_A, light_s, rnd_vec_eq. unfold V.
  unfold rnd_vec, mat_mul, wit_matrix. cbn [map nth].
  assert (M : vmul (single 2 (runs 52 4)) (single 2 pone) = runs 52 4).
  { apply wf_eq; [apply vmul_wf| |].
    - split; [reflexivity|]. unfold runs. apply Forall_app. split;
        apply Forall_forall; intros x Hx; apply repeat_spec in Hx; subst; unfold is_u16; lia.
    - eapply cong_trans; [apply (E_vmul 65536 ltac:(lia) d16 2); reflexivity|].
      intro k. rewrite dot_single_l by (auto; intros; apply V_single_S).
      rewrite !V_single_0, star_one_r by apply E_anti. reflexivity. }
  rewrite M. assert (R : rnd_poly (runs 52 4) = runs 52 1) by (vm_compute; reflexivity).
  rewrite R. reflexivity.
Qed.

Lemma dec_coeff_bit : forall I k mp v1, dec_coeff I k mp v1 = 0 \/ dec_coeff I k mp v1 = 1.
Proof.
  intros. unfold dec_coeff. match goal with |- context [?z mod 1024] => generalize z end.
  intro z. Z.div_mod_to_equations. lia.
Qed.
Lemma div8_cancel : forall a b x, a mod 65536 = 260 mod 65536 -> (8 * (a - b)) mod 8192 = x mod 8192 -> x = 1040 ->
  b mod 1024 = 130 mod 1024.
Proof. intros a b x H H1 ->. Z.div_mod_to_equations. lia. Qed.
Lemma mod1024_of : forall a, a mod 65536 = 260 mod 65536 -> (512 * 1 + a) mod 1024 = 772 mod 1024.
Proof. intros. Z.div_mod_to_equations. lia. Qed.

Lemma light_v61 :
  at_ (vmul (pk_vec (fst (indcpa_keypair light_wit LightSaber (repeat 0 32) (repeat 1 32))))
            (gen_secret light_wit LightSaber (repeat 2 32))) 61 mod 65536 = 260 mod 65536.
Proof.
  rewrite light_t.
  assert (L : length (pk_vec (fst (indcpa_keypair light_wit LightSaber (repeat 0 32) (repeat 1 32)))) = 2%nat).
  { unfold indcpa_keypair. cbn [fst pk_vec]. rewrite light_A, rnd_vec_eq. reflexivity. }
  pose proof light_pk_vec as P. revert P L.
  generalize (pk_vec (fst (indcpa_keypair light_wit LightSaber (repeat 0 32) (repeat 1 32)))).
  intros v P L.
  assert (H61 : (61 < DEG)%nat) by (unfold DEG; lia).
  pose proof (E_at (vmul v (single 2 (repeat 5 256))) 61 H61) as Q. rewrite <- Q.
  rewrite (E_vmul 65536 ltac:(lia) d16 2); [|exact L|reflexivity].
  rewrite dot_single_r by (auto; try (intro; apply V_anti); intros; apply V_single_S).
  rewrite P, V_single_0, star_runs by lia. vm_compute. reflexivity.
Qed.

Theorem light_dec_failure :
  let pk := fst (indcpa_keypair light_wit LightSaber (repeat 0 32) (repeat 1 32)) in
  let sk := snd (indcpa_keypair light_wit LightSaber (repeat 0 32) (repeat 1 32)) in
  let ct := indcpa_enc light_wit LightSaber ones_msg (repeat 2 32) pk in
  msg_bit (indcpa_dec LightSaber sk ct) 61 = 0.
Proof.
  intros pk sk ct.
  destruct (dec_poly_at light_wit LightSaber (repeat 0 32) (repeat 1 32) ones_msg (repeat 2 32) 61
    ps_light eq_refl ltac:(unfold DEG; lia)) as [p [v' [v1 [EQ [Lp [Hp [Hv Hn]]]]]]].
  fold pk in EQ, Hv. fold sk in EQ. fold ct in EQ. rewrite EQ.
  assert (H61 : (61 < DEG)%nat) by (unfold DEG; lia).
  assert (HB : Forall (fun x => x = 0 \/ x = 1) p).
  { apply Forall_forall. intros x Hx. apply In_nth with (d := 0) in Hx. destruct Hx as [i [Hi <-]].
    fold (at_ p i). rewrite Lp in Hi. rewrite Hp by exact Hi. apply dec_coeff_bit. }
  rewrite <- nth_flat_bits by (rewrite read_msg_length by exact Lp; lia).
  rewrite bits_read_msg by assumption. fold (at_ p 61). rewrite Hp by exact H61.
  assert (Vv : at_ v' 61 mod 65536 = 260 mod 65536).
  { rewrite Hv. exact light_v61. }
  specialize (Hn 61%nat H61).
  rewrite (wit_enc_noise light_wit LightSaber 52 5 61) in Hn;
    [|cbn; lia|lia|lia|lia|apply light_A|apply light_s|apply light_t].
  assert (W : wit_x 52 5 61 - round_err (wit_x 52 5 61) = 1040) by (vm_compute; reflexivity).
  pose proof (div8_cancel _ _ _ Vv Hn W) as V1.
  rewrite (dec_coeff_mod _ _ _ 772 _ 130).
  - vm_compute. reflexivity.
  - change (msg_bit ones_msg 61) with 1. apply mod1024_of. exact Vv.
  - exact V1.
Qed.
