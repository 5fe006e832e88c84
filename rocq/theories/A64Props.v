(** * A64Props: what holds of the AArch64 build of Dilithium2 without any condition on SHAKE, what
    was signed verifies, and concrete cases. *)
From Coq Require Import ZArith List Lia Bool.
From Verif Require Import Base Bits SaberPoly SaberRing DilArith DilNtt DilNttProof DilNttEval DilNttSpec DilPoly DilPack DilCodec2 DilHint DilOps DilSample DilRound DilSign DilCorrect DilProps DilShake2 DilWitness
  AvxMachine AvxSample AvxSign AvxSignOk2 AvxSpec A64Machine A64Rel A64Sym A64SymOk A64Ntt A64T1 A64Sample A64Sign A64SignOk A64SignOk2.
Import ListNotations.
Open Scope Z_scope.
Local Opaque rej_uniform squeeze.

(** ** No undefined behaviour, whatever SHAKE returns *)
Definition entry_ok (a : poly) : Prop := length a = 256%nat /\ Forall (fun x => 0 <= x < Q) a.
Lemma uniformx2_loop_ok : forall fuel s0 s1 a0 a1 b0 b1 pos,
  (length a0 <= 256)%nat -> (length a1 <= 256)%nat -> Forall (fun x => 0 <= x < Q) a0 -> Forall (fun x => 0 <= x < Q) a1 ->
  safe (uniformx2_loop fuel s0 s1 a0 a1 b0 b1 pos) (fun r => entry_ok (fst r) /\ entry_ok (snd r)).
Proof.
  induction fuel as [|fuel IH]; intros s0 s1 a0 a1 b0 b1 pos L0 L1 F0 F1; cbn [uniformx2_loop].
  - destruct (Nat.ltb_spec (length a0) 256) as [H|H]; cbn [orb]; [left; reflexivity|].
    destruct (Nat.ltb_spec (length a1) 256) as [H'|H']; [left; reflexivity|]. apply safe_ret. cbn [fst snd]. unfold entry_ok. repeat split; auto; lia.
  - destruct (Nat.ltb_spec (length a0) 256) as [H|H]; cbn [orb].
    + cbv zeta. apply IH.
      * rewrite app_length. pose proof (proj1 (rej_uniform_ok (squeeze s0 pos SHAKE128_RATE ++ skipn SHAKE128_RATE b0) (256 - length a0))). lia.
      * rewrite app_length. pose proof (proj1 (rej_uniform_ok (squeeze s1 pos SHAKE128_RATE ++ skipn SHAKE128_RATE b1) (256 - length a1))). lia.
      * apply Forall_app. split; [exact F0|apply rej_uniform_ok].
      * apply Forall_app. split; [exact F1|apply rej_uniform_ok].
    + destruct (Nat.ltb_spec (length a1) 256) as [H'|H'].
      * cbv zeta. apply IH.
        -- rewrite app_length. pose proof (proj1 (rej_uniform_ok (squeeze s0 pos SHAKE128_RATE ++ skipn SHAKE128_RATE b0) (256 - length a0))). lia.
        -- rewrite app_length. pose proof (proj1 (rej_uniform_ok (squeeze s1 pos SHAKE128_RATE ++ skipn SHAKE128_RATE b1) (256 - length a1))). lia.
        -- apply Forall_app. split; [exact F0|apply rej_uniform_ok].
        -- apply Forall_app. split; [exact F1|apply rej_uniform_ok].
      * apply safe_ret. cbn [fst snd]. unfold entry_ok. repeat split; auto; lia.
Qed.
Lemma uniformx2_safe : forall fuel X seed n0 n1, safe (poly_uniformx2 fuel X seed n0 n1) (fun r => entry_ok (fst r) /\ entry_ok (snd r)).
Proof. intros. unfold poly_uniformx2. cbv zeta. apply uniformx2_loop_ok; apply rej_uniform_ok. Qed.
Lemma column_safe : forall fuel X rho j, safe (expand_column fuel X rho j) (fun c => length c = 4%nat /\ Forall entry_ok c).
Proof.
  intros. unfold expand_column. cbv zeta. eapply safe_bind; [apply uniformx2_safe|]. intros [a0 a1] [E0 E1].
  eapply safe_bind; [apply uniformx2_safe|]. intros [a2 a3] [E2 E3]. apply safe_ret. split; [reflexivity|]. cbn [fst snd] in *. apply Forall_cons; [exact E0|]. apply Forall_cons; [exact E1|]. apply Forall_cons; [exact E2|]. apply Forall_cons; [exact E3|]. apply Forall_nil.
Qed.
Lemma mapM_safe : forall {A B} (f : A -> crun B) (P : B -> Prop) l, (forall x, In x l -> safe (f x) P) -> safe (mapM f l) (fun r => length r = length l /\ Forall P r).
Proof.
  intros A B f P l. induction l as [|x l IH]; intro H; cbn [mapM]; [apply safe_ret; split; [reflexivity|constructor]|].
  eapply safe_bind; [apply H; left; reflexivity|]. intros y Hy. eapply safe_bind; [apply IH; intros z Hz; apply H; right; exact Hz|].
  intros ys [L F]. apply safe_ret. split; [cbn [length]; lia|constructor; assumption].
Qed.
Lemma entry_std : forall a, entry_ok a -> std a.
Proof. intros a [L F]. split; [exact L|]. intros p Hp. exact (proj1 (pol_Forall (fun x => 0 <= x < Q) a L) F p Hp). Qed.
Theorem matrix_expand64_safe : forall fuel X rho, safe (matrix_expand64 fuel X rho) matrix.
Proof.
  intros. unfold matrix_expand64. eapply safe_bind; [apply (mapM_safe _ (fun c => length c = 4%nat /\ Forall entry_ok c)); intros j _; apply column_safe|].
  intros cols [L F]. apply safe_ret. rewrite seq_length in L. split; [reflexivity|]. intros i Hi.
  assert (N : nth i (map (fun i => map (fun col => nth i col []) cols) (seq 0 4)) [] = map (fun col => nth i col []) cols).
  { destruct i as [|[|[|[|i]]]]; [reflexivity|reflexivity|reflexivity|reflexivity|lia]. }
  rewrite N. clear N.
  split; [rewrite map_length; exact L|]. intros j Hj. unfold vat. rewrite (nth_indep _ [] (nth i [] [])) by (rewrite map_length; lia).
  rewrite (map_nth (fun col => nth i col [])). rewrite Forall_forall in F. destruct (F (nth j cols [])) as [Lc Fc]; [apply nth_In; lia|].
  apply entry_std. rewrite Forall_forall in Fc. apply Fc. apply nth_In. lia.
Qed.
Local Opaque matrix_expand64 sign_loop sign_loop64.
(** Signing and verification never access memory outside their arrays and never overflow, for any
    key and signature of the right length and any SHAKE. *)
Theorem a64_sign_defined : forall att e fuel X m sk, ctx64_ok e -> length sk = 2560%nat -> sign_signature64 att e fuel X m sk <> CUB.
Proof.
  intros att e fuel X m sk He L. unfold sign_signature64.
  destruct (unpack_sk sk) as [[[[[rho tr] key] t0] s1] s2] eqn:U. cbv zeta.
  assert (V : vec4 t0_range t0 /\ vec4 eta_range s1 /\ vec4 eta_range s2).
  { unfold unpack_sk in U. apply pair_equal_spec in U. destruct U as [U <-]. apply pair_equal_spec in U. destruct U as [U <-].
    apply pair_equal_spec in U. destruct U as [U <-]. clear U. split; [|split].
    - apply (vec_unpack_vec4 t0_range polyt0_unpack 416 sk 896); auto using polyt0_unpack_range, polyt0_unpack_length. lia.
    - apply (vec_unpack_vec4 eta_range polyeta_unpack 96 sk 128); auto using polyeta_unpack_range, polyeta_unpack_length. lia.
    - apply (vec_unpack_vec4 eta_range polyeta_unpack 96 sk 512); auto using polyeta_unpack_range, polyeta_unpack_length. lia. }
  destruct V as (V0 & V1 & V2). clear U.
  destruct (matrix_expand64_safe fuel X rho) as [->|(mat & -> & M)]; [discriminate|]. cbn [cbind].
  assert (Q1 : vec (pol Q) s1) by (eapply vec4_pol; [|exact V1]; unfold eta_range, Q; intros; lia).
  assert (Q2 : vec (pol Q) s2) by (eapply vec4_pol; [|exact V2]; unfold eta_range, Q; intros; lia).
  assert (Q0 : vec (pol Q) t0) by (eapply vec4_pol; [|exact V0]; unfold t0_range, Q; intros; lia).
  destruct (k_vec_ntt e He s1 Q1) as (s1g & -> & R1). destruct (k_vec_ntt e He s2 Q2) as (s2g & -> & R2). destruct (k_vec_ntt e He t0 Q0) as (t0g & -> & R0). cbn [cbind].
  rewrite (loop64 e fuel X mat s1 s2 t0 s1g s2g t0g s1g s2g t0g _ _ He M R1 R1 R2 R2 R0 R0).
  match goal with |- ?g <> _ => assert (S : safe g (accepted fuel X mat s1 s2 t0 (H256 X 64 (tr ++ m)))) by (eapply sign_loop_ok; eassumption) end.
  destruct S as [->|(s & -> & _)]; discriminate.
Qed.
Local Opaque verify_signature64 verify_signature.
Theorem a64_verify_defined : forall e fuel X sig m pk, ctx64_ok e -> is_bytes sig -> length pk = 1312%nat -> is_bytes pk -> verify_signature64 e fuel X sig m pk <> CUB.
Proof.
  intros e fuel X sig m pk He Bs L B.
  destruct (verify64_early e fuel X sig m pk He Bs L B) as [(b & -> & _)|[[-> _]|(c & z & h & cp & t1 & Ls & Up & V1 & Us & Lh & Vh & Vz & Ec)]]; [discriminate|discriminate|].
  destruct (matrix_expand64_safe fuel X (firstn 32 pk)) as [Em|(mat & Em & M)].
  - with_strategy transparent [verify_signature64] (unfold verify_signature64). rewrite Ls, Nat.eqb_refl. cbn [negb]. rewrite k_unpack_pk_ok by assumption. cbn [cbind]. rewrite Up, Us.
    assert (Pz : vec (pol 131072) z). { eapply vec4_pol; [|exact Vz]. unfold GAMMA1, BETA. intros; lia. }
    destruct (vec_chknorm_ok z (GAMMA1 - BETA)) as (b & -> & _). { eapply vec_pol_le; [|exact Pz]. lia. } { unfold GAMMA1, BETA; lia. }
    cbn [cbind]. destruct b; [discriminate|]. rewrite Ec, Em. cbn [cbind]. discriminate.
  - destruct (verify64_run e fuel X sig m pk (firstn 32 pk) t1 c z h cp mat He Ls L B Up V1 Us Vz Ec Em M) as (w & Rw & ->).
    destruct (vec_use_hint_ok w h (proj1 Rw) (hint_rows_256 h Lh Vh)) as (w1 & -> & _). cbn [cbind]. discriminate.
Qed.

(** ** What one build signs every build accepts *)
Lemma key_seed : forall f X coins pk sk, keypair_det f X coins = CRet (pk, sk) -> firstn 32 sk = firstn 32 pk.
Proof.
  intros f X coins pk sk HK. pose proof (safe_inv _ _ _ (keypair_ok f X coins) HK) as K. cbn [fst snd] in K.
  destruct K as (rho & key & mat & t1 & t0 & s1 & s2 & _ & Lr & _ & _ & _ & _ & _ & _ & _ & -> & -> & _).
  unfold pack_pk, pack_sk. rewrite (firstn_all2 rho) by lia.
  assert (G : forall r : bytes, firstn 32 (rho ++ r) = rho) by (intro r; rewrite firstn_app, Lr, Nat.sub_diag, firstn_O, app_nil_r; apply firstn_all2; lia).
  rewrite !G. reflexivity.
Qed.
Local Opaque sign_signature sign_signature64 verify_signature_avx keypair_det.
Theorem a64_complete : forall e e' att f f' X coins pk sk m sig, ctx64_ok e -> ctx_ok e' ->
  keypair_det f X coins = CRet (pk, sk) -> six_blocks_suffice X (firstn 32 pk) ->
  sign_signature64 att e (S f') X m sk = CRet sig ->
  verify_signature64 e (S f') X sig m pk = CRet true /\ verify_signature (S f') X sig m pk = CRet true /\ verify_signature_avx e' (S f') X sig m pk = CRet true.
Proof.
  intros e e' att f f' X coins pk sk m sig He He' HK Six HS.
  destruct (dil_keypair_sizes _ _ _ _ _ HK) as [Lpk Lsk]. destruct (keypair_bytes _ _ _ _ _ HK) as [Bpk Bsk].
  assert (Six' : six_blocks_suffice X (firstn 32 sk)) by (rewrite (key_seed _ _ _ _ _ HK); exact Six).
  pose proof (a64_sign_signature att e f' X m sk He Lsk Six') as EQ. rewrite EQ in HS. clear EQ.
  pose proof (sign_bytes _ _ _ _ _ _ Lsk HS) as Bs. rewrite (a64_verify_signature e f' X sig m pk He Bs Lpk Bpk Six).
  pose proof (dil_complete _ _ _ (S f') _ _ _ _ _ _ HK HS (le_n _)) as V. split; [exact V|]. split; [exact V|].
  exact (avx_complete e' _ _ _ (S f') _ _ _ _ _ _ He' HK HS (le_n _)).
Qed.

(** ** Concrete cases *)
Definition some_ctx64 : ctx64 := {| k_v1 := repeat [0; 1; -1; 7] 32; k_v2 := repeat [0; 0; 0; 0] 32; k_j1 := repeat 5 28; k_j2 := repeat 0 28; k_w := repeat 9 8; k_mem := repeat 3 256 |}.
Example some_ctx64_ok : ctx64_ok some_ctx64.
Proof.
  unfold ctx64_ok, regs64, vregs_ok, some_ctx64; cbn [k_v1 k_v2 k_j1 k_j2 k_w k_mem].
  repeat split; try reflexivity; apply Forall_forall; intros x Hx; apply repeat_spec in Hx; subst x; (reflexivity || (split; [reflexivity|repeat constructor; unfold in32; lia])).
Qed.
Local Transparent rej_uniform squeeze.
Example toy_six_blocks : forall rho, six_blocks_suffice toy_xof rho.
Proof. intros rho i j _ _. unfold enough, stream128, toy_xof. cbn [shake128]. vm_compute. reflexivity. Qed.
Local Opaque rej_uniform squeeze.
(** A key pair, and a signature made by the AArch64 build that all three builds accept. *)
Example a64_example : exists pk sk sig, keypair_det 0 toy_xof (repeat 7 32) = CRet (pk, sk) /\
  sign_signature64 1 some_ctx64 300 toy_xof [104; 105] sk = CRet sig /\
  verify_signature64 some_ctx64 300 toy_xof sig [104; 105] pk = CRet true /\ verify_signature 300 toy_xof sig [104; 105] pk = CRet true /\
  verify_signature_avx some_ctx 300 toy_xof sig [104; 105] pk = CRet true.
Proof.
  destruct dil_example as (pk & sk & sig & HK & HS & _). exists pk, sk, sig. destruct (dil_keypair_sizes _ _ _ _ _ HK) as [_ Lsk].
  assert (HS' : sign_signature64 1 some_ctx64 300 toy_xof [104; 105] sk = CRet sig).
  { rewrite (a64_sign_signature 1 some_ctx64 299 toy_xof [104; 105] sk some_ctx64_ok Lsk (toy_six_blocks _)). exact HS. }
  split; [exact HK|]. split; [exact HS'|]. exact (a64_complete some_ctx64 some_ctx 1 0 299 toy_xof _ pk sk _ sig some_ctx64_ok some_ctx_ok HK (toy_six_blocks _) HS').
Qed.
(** A stream on which the two samplers differ: 224 candidates in blocks two to five, none in the
    first and in the sixth, then others. *)
Definition late_stream : rng := fun i =>
  if (i <? 168)%nat then 255 else if (i <? 840)%nat then (if (i mod 3 =? 0)%nat then 1 else 0)
  else if (i <? 1008)%nat then 255 else (if (i mod 3 =? 0)%nat then 2 else 0).
Definition late_xof : xof := {| shake128 := fun _ => late_stream; shake256 := fun _ _ => 0 |}.
Local Transparent rej_uniform squeeze.
Example samplers_differ : forall seed n0 n1,
  poly_uniform 2 late_xof seed n0 = CRet (repeat 1 224 ++ repeat 2 32) /\
  poly_uniformx2 2 late_xof seed n0 n1 = CRet (repeat 1 256, repeat 1 256).
Proof. intros. split; vm_compute; reflexivity. Qed.
