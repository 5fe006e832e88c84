(** * KeccakWitness: published test vectors, for the code and so for the specification (C60, C61). *)
From Coq Require Import ZArith List Lia Bool.
From Verif Require Import Keccak KeccakSpec PropsKeccak.
From Verif Require Import Base Bits SaberPoly DilArith DilNtt DilPoly DilPack DilSign DilShake DilShake2.
Import ListNotations.
Open Scope Z_scope.

(** NIST: SHA3-256 of the empty string, a7ffc6f8bf1ed76651c14756a061d662f580ff4de43b49fa82d80a4b80f8434a. *)
Definition sha3_256_empty : bytes :=
  [167; 255; 198; 248; 191; 30; 215; 102; 81; 193; 71; 86; 160; 97; 214; 98;
   245; 128; 255; 77; 228; 59; 73; 250; 130; 216; 10; 75; 128; 248; 67; 74].
Example sha3_256_vector : c_sha3_256 [] = sha3_256_empty.
Proof. vm_compute. reflexivity. Qed.
(** The specification of FIPS 202 as written in KeccakSpec, hence, gives the published digest. *)
Example sha3_256_spec_vector : SHA3_256 [] = bits_of_bytes sha3_256_empty.
Proof. destruct (sha3_256_fips202 [] ltac:(constructor)) as (_ & _ & E). rewrite sha3_256_vector in E. symmetry. exact E. Qed.
(** SHAKE128 of the empty string starts with 7f9c2ba4e88f827d616045507605853e. *)
Example shake128_vector : shake128_session [[]; []] [5%nat; 0%nat; 11%nat] =
  [[127; 156; 43; 164; 232]; []; [143; 130; 125; 97; 96; 69; 80; 118; 5; 133; 62]].
Proof. vm_compute. reflexivity. Qed.
Example shake128_spec_vector : SHAKE128 [] 128 =
  bits_of_bytes [127; 156; 43; 164; 232; 143; 130; 125; 97; 96; 69; 80; 118; 5; 133; 62].
Proof.
  destruct (shake128_fips202 [] 16 ltac:(constructor)) as (_ & _ & E). pose proof (shake128_incremental [[]; []] [5%nat; 0%nat; 11%nat]) as I.
  rewrite shake128_vector in I. specialize (I ltac:(repeat constructor)). change (total [5%nat; 0%nat; 11%nat]) with 16%nat in I. change (concat [[]; []]) with (@nil Z) in I.
  cbn [cut] in I. remember (c_shake128 16 []) as o eqn:Ho. change (bits_of_bytes []) with (@nil bool) in E. change (8 * 16)%nat with 128%nat in E. rewrite <- E.
  assert (L : length o = 16%nat) by (subst o; apply shake128_fips202; constructor).
  do 16 (destruct o as [|? o]; [discriminate L|]). destruct o; [|discriminate L]. cbn [firstn skipn] in I.
  injection I as <- <- <- <- <- <- <- <- <- <- <- <- <- <- <- <-. reflexivity.
Qed.
(** The challenge sampler runs to completion on a seed. *)
Example challenge_runs : exists c, poly_challenge_c 10 (repeat 7 32) = CRet c /\
  fold_right Z.add 0 (map Z.abs c) = 39 /\ firstn 12 c = [0; -1; 0; 0; 0; 0; 1; 0; 0; -1; 1; 0].
Proof.
  destruct (poly_challenge_c 10 (repeat 7 32)) as [c| |] eqn:E; revert E; vm_compute; intro E; try discriminate E.
  injection E as <-. eexists. repeat split.
Qed.
