(** * AvxKeccakWitness: the four-way SHAKE of the AVX2 build on published test vectors. *)
From Coq Require Import ZArith List Lia Bool.
From Verif Require Import Base DilArith Keccak KeccakSpec KeccakPerm KeccakSponge KeccakProps KeccakX4 KeccakX4Ok FipsX4Ok.
Import ListNotations.
Open Scope Z_scope.
Definition w_regs : list KeccakX4.vec := map (fun r => map (fun l => Z.of_nat (1000 * r + l)) (seq 0 4)) (seq 0 16).
(** Four buffers of which three bytes are hashed; the second holds "abc". *)
Definition w_bufs : list bytes := [[1; 2; 3; 255; 255; 255; 255; 255]; [97; 98; 99; 0; 0; 0; 0; 0]; repeat 9 8; [97; 98; 99; 100; 101; 102; 103; 104]].
Example w_regs_ok : regs_ok w_regs.
Proof.
  split; [reflexivity|]. apply Forall_forall. intros v Hv. unfold w_regs in Hv. apply in_map_iff in Hv. destruct Hv as (r & <- & Hr). apply in_seq in Hr.
  split; [reflexivity|]. apply Forall_forall. intros x Hx. apply in_map_iff in Hx. destruct Hx as (l & <- & Hl). apply in_seq in Hl. unfold w64. lia.
Qed.
Example w_bufs_ok : bufs_ok w_bufs /\ forall b, In b w_bufs -> (roundup 3 <= length b)%nat.
Proof.
  split.
  - split; [reflexivity|]. unfold w_bufs, is_bytes, is_byte. repeat (apply Forall_cons; [cbn [repeat]; repeat (apply Forall_cons; [lia|]); apply Forall_nil|]). apply Forall_nil.
  - intros b Hb. unfold w_bufs in Hb. cbn [In] in Hb. repeat (destruct Hb as [<- | Hb]; [vm_compute; lia|]). destruct Hb.
Qed.
(** SHAKE128("abc") starts with 5881092dd818bf5cf8a3. *)
Example shake128x4_vector : exists a b, c_shakex4 w_regs R_SHAKE128 10 w_bufs 3 = CRet [a; [88; 129; 9; 45; 216; 24; 191; 92; 248; 163]; b; [88; 129; 9; 45; 216; 24; 191; 92; 248; 163]].
Proof. eexists. eexists. vm_compute. reflexivity. Qed.
