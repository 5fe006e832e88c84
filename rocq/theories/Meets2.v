(** * Meets2: concrete polynomials, encodings and registers that meet the hypotheses of theorems
    about Dilithium2 and its assembly (C52, C55, C56, C72, C73, C80, C81). *)
From Coq Require Import ZArith List Lia Bool.
From Verif Require Import Base Bits DilArith DilNtt DilPoly DilPack DilNttProof DilOps DilCodec2 DilSpec DilFormat.
From Verif Require AvxSymOk AvxNtt AvxPoly AvxCodecOk A64Ntt A64Elem2 A64Machine AvxSample.
Import ListNotations.
Open Scope Z_scope.

Definition ramp (m : Z) : list Z := map (fun i => Z.of_nat i mod m) (seq 0 256).
Lemma ramp_length : forall m, length (ramp m) = 256%nat. Proof. intro m. unfold ramp. rewrite map_length. apply seq_length. Qed.
Lemma ramp_range : forall m p, 0 < m -> (p < 256)%nat -> 0 <= at_ (ramp m) p < m.
Proof.
  intros m p M P. unfold at_, ramp. rewrite (nth_indep _ 0 (Z.of_nat 0 mod m)) by (rewrite map_length, seq_length; exact P).
  rewrite (map_nth (fun i => Z.of_nat i mod m)), seq_nth by exact P. apply Z.mod_pos_bound. exact M.
Qed.
Lemma ramp_forall : forall m (P : Z -> Prop), 0 < m -> (forall x, 0 <= x < m -> P x) -> Forall P (ramp m).
Proof.
  intros m P M H. apply Forall_map, Forall_forall. intros i _. apply H. apply Z.mod_pos_bound. exact M.
Qed.
(** Four different polynomials. *)
Definition ramps (m : Z) : polyvec := [ramp m; rev (ramp m); repeat (m - 1) 256; repeat 0 256].
Lemma ramps_vec4 : forall m (P : Z -> Prop), 0 < m -> (forall x, 0 <= x < m -> P x) -> vec4 P (ramps m).
Proof.
  intros m P M H. split; [reflexivity|]. unfold ramps.
  assert (R : forall z, P z -> length (repeat z 256) = 256%nat /\ Forall P (repeat z 256)).
  { intros z Z0. split; [apply repeat_length|]. apply Forall_forall. intros x X. apply repeat_spec in X. subst. exact Z0. }
  repeat apply Forall_cons; [| | | |apply Forall_nil].
  - split; [apply ramp_length|apply ramp_forall; assumption].
  - split; [rewrite rev_length; apply ramp_length|]. apply Forall_rev, ramp_forall; assumption.
  - apply R, H. lia.
  - apply R, H. lia.
Qed.

(** C52, C72, C80: polynomials within the bounds of the transforms, and registers. *)
Example transform_meets : pol Q (ramp 251) /\ bnd Q (ramp 251) /\ 0 <= Q /\ Q + 8 * Q < 2147483648 /\
  AvxSymOk.regs_ok (repeat (repeat 5 8) 16) /\ (exists vs junk, A64Ntt.regs64 vs junk).
Proof.
  assert (B : bnd Q (ramp 251)) by (intros p Hp; pose proof (ramp_range 251 p ltac:(lia) Hp); unfold Q; lia).
  split; [split; [apply ramp_length|exact B]|]. split; [exact B|]. split; [unfold Q; lia|]. split; [unfold Q; lia|].
  split.
  - split; [reflexivity|]. apply Forall_forall. intros v V. apply repeat_spec in V. subst. reflexivity.
  - exists (repeat [0; 1; -1; 7] 32), (repeat 5 28). split; [|reflexivity].
    split; [reflexivity|]. apply Forall_forall. intros v V. apply repeat_spec in V. subst. reflexivity.
Qed.
(** C55, C56: vectors in the ranges of every encoding of keys and signatures. *)
Example codec_meets : vec4 t1_range (ramps 1024) /\ vec4 t0_range (ramps 4097) /\ vec4 eta_range (ramps 3) /\ vec4 z_range (ramps 131072) /\ vec4 w1_range (ramps 44) /\
  (exists H : bytes, length H = 84%nat /\ is_bytes H /\ exists h, hint_format h H).
Proof.
  split; [apply ramps_vec4; [lia|unfold t1_range; lia]|].
  split; [apply ramps_vec4; [lia|unfold t0_range; lia]|].
  split; [apply ramps_vec4; [lia|unfold eta_range; lia]|].
  split; [apply ramps_vec4; [lia|unfold z_range, GAMMA1; lia]|].
  split; [apply ramps_vec4; [lia|unfold w1_range; lia]|].
  exists ([3; 200; 7; 0; 255] ++ repeat 0 75 ++ [2; 3; 3; 5]). 
  assert (B : is_bytes ([3; 200; 7; 0; 255] ++ repeat 0 75 ++ [2; 3; 3; 5])) by (repeat (apply Forall_cons; [unfold is_byte; lia|]); apply Forall_nil).
  split; [reflexivity|]. split; [exact B|].
  destruct (unpack_hint ([3; 200; 7; 0; 255] ++ repeat 0 75 ++ [2; 3; 3; 5])) as [h|] eqn:E; [|exfalso; revert E; vm_compute; discriminate].
  exists h. apply dil_hint_format; [reflexivity|exact B|exact E].
Qed.
(** A hint section whose positions are not sorted is no encoding of any hint. *)
Example hint_malformed : forall h, ~ hint_format h ([200; 3; 7; 0; 255] ++ repeat 0 75 ++ [2; 3; 3; 5]).
Proof.
  intros h F.
  assert (B : is_bytes ([200; 3; 7; 0; 255] ++ repeat 0 75 ++ [2; 3; 3; 5])) by (repeat (apply Forall_cons; [unfold is_byte; lia|]); apply Forall_nil).
  assert (L : length ([200; 3; 7; 0; 255] ++ repeat 0 75 ++ [2; 3; 3; 5]) = 84%nat) by reflexivity.
  pose proof (proj2 (dil_hint_format h _ L B) F) as E. revert E. vm_compute. discriminate.
Qed.
(** C73, C81: the portable functions return on such polynomials, so the theorems that take their
    result as a hypothesis apply. *)
Example elementwise_meets : (exists r, poly_reduce (ramp 251) = CRet r) /\ (exists r, poly_power2round (ramp 251) = CRet r) /\
  (exists r, poly_pointwise_montgomery (ramp 251) (ramp 97) = CRet r) /\ std (ramp 251) /\ Forall in32 (ramp 251) /\ Forall AvxCodecOk.in6 (ramp 64) /\
  Forall (fun x => -2147483648 < x < 2147483648) (ramp 251).
Proof.
  split; [eexists; vm_compute; reflexivity|]. split; [eexists; vm_compute; reflexivity|]. split; [eexists; vm_compute; reflexivity|].
  split; [split; [apply ramp_length|intros p Hp; pose proof (ramp_range 251 p ltac:(lia) Hp); unfold Q; lia]|].
  split; [apply ramp_forall; [lia|intros x X; unfold in32; lia]|].
  split; [apply ramp_forall; [lia|intros x X; unfold AvxCodecOk.in6; lia]|].
  apply ramp_forall; [lia|intros; lia].
Qed.
