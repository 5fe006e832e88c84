(** * Pakes: model of latke/src/pake/{cake,cpace,kc_spake2}.rs *)
From Coq Require Import ZArith List Lia Bool String.
From Verif Require Import Base SaberKem Crypto Symmetric.
Import ListNotations.
Open Scope Z_scope.

(* ------------------------------------------------------------------ *)
(** ** CAKE (cake.rs) *)

(** cake.rs 17-21 and 30-34: the key of the ideal cipher for a domain, ssid and password.
    [MyKdf::from_prk] cannot fail here: a hash has 32 bytes. *)
Definition cake_key (P : prims) (domain_sep : Z) (ssid password : bytes) : outcome bytes :=
  let! hk := from_prk (hash256 P password) in
  Ret (expand P hk ([domain_sep] ++ ssid) 32).
(** cake.rs 15-26: [ideal_cipher_encrypt]. *)
Definition ideal_cipher_encrypt (P : prims) (domain_sep : Z) (ssid password payload : bytes) : outcome bytes :=
  let! key := cake_key P domain_sep ssid password in wide_block_encrypt P key payload.
(** cake.rs 28-39: [ideal_cipher_decrypt]. *)
Definition ideal_cipher_decrypt (P : prims) (domain_sep : Z) (ssid password payload : bytes) : outcome bytes :=
  let! key := cake_key P domain_sep ssid password in wide_block_decrypt P key payload.

(** cake.rs 41-51: [struct Cake]. *)
Record cake := Cake {
  ck_password : bytes;
  ck_ssid : bytes;
  ck_pk : option pk_cpa;
  ck_sk : option sk_cpa;
  ck_key : option bytes;
  ck_step : nat;
  ck_done : bool
}.

(** cake.rs 56-69: [new]; the rng is not used. *)
Definition cake_new (r : rng) (ssid password : bytes) (rl : role) : outcome (cake * rng) :=
  Ret (Cake password ssid None None None (first_step rl) false, r).

(** [copy_from_slice] into an n-byte array: panics unless the lengths agree. *)
Definition copy_exact (n : nat) (b : bytes) : outcome bytes := assert_ (List.length b =? n)%nat (Ret b).
(** [Result::unwrap]. *)
Definition unwrap_ok {A E} (x : res A E) : outcome A := match x with Ok a => Ret a | Err _ => Panic end.

(** cake.rs 79-137: [run].  [os] is the randomness the KEM draws from the operating system.
    A panic leaves no state, so the order of the assignments before a panic is immaterial. *)
Definition cake_run (P : prims) (h : saber_prims) (s : cake) (os : rng) (m : bytes)
  : outcome (cake * res (option bytes) unit) :=
  match ck_step s with
  | 0%nat =>
    assert_ (List.length m =? 0)%nat
    (let '(pk, sk, _) := keygen_ind_cpa h LightSaber os in
     let! buf := copy_exact (INDCPA_PUBLICKEYBYTES LightSaber) (pk_to_bytes pk) in
     let! enc := ideal_cipher_encrypt P 0 (ck_ssid s) (ck_password s) buf in
     Ret (Cake (ck_password s) (ck_ssid s) (Some pk) (Some sk) (ck_key s) (ck_step s + 2) (ck_done s),
          Ok (Some enc)))
  | 1%nat =>
    let! buf := copy_exact (INDCPA_PUBLICKEYBYTES LightSaber) m in
    let! pkb := ideal_cipher_decrypt P 0 (ck_ssid s) (ck_password s) buf in
    let! pk := indcpa_pk_from_bytes LightSaber pkb in
    let '(ss, ct, _) := encapsulate_ind_cpa h LightSaber os pk in
    let! enc := ideal_cipher_encrypt P 1 (ck_ssid s) (ck_password s) ct in
    Ret (Cake (ck_password s) (ck_ssid s) (ck_pk s) (ck_sk s) (Some ss) (ck_step s + 2) true, Ok (Some enc))
  | 2%nat =>
    let! r := ciphertext_from_bytes LightSaber m in
    let! enc := unwrap_ok r in
    let! ct := ideal_cipher_decrypt P 1 (ck_ssid s) (ck_password s) enc in
    let! sk := unwrap (ck_sk s) in
    let ss := decapsulate_ind_cpa LightSaber ct sk in
    Ret (Cake (ck_password s) (ck_ssid s) (ck_pk s) (ck_sk s) (Some ss) (ck_step s + 2) true, Ok None)
  | _ => Panic
  end.

Definition CakePake (P : prims) (h : saber_prims) : pake := {|
  PST := cake; PERR := unit;
  pk_new := cake_new;
  pk_run := cake_run P h;
  pk_done := ck_done;                       (* cake.rs 75-77 *)
  pk_fin := fun s => unwrap (ck_key s)      (* cake.rs 71-73 *)
|}.

(* ------------------------------------------------------------------ *)
(** ** CPace (cpace.rs) *)

(** The pake-cpace crate (outside /repo), as the three calls cpace.rs makes.  The strings are
    passed as their bytes; [cp_step2] returns the key k1 and the packet; [None] is the crate's
    [Err].  Packets have 48 and 32 bytes and k1 has 32. *)
Record cpace_crate := {
  CPST : Type;
  cp_step1 : bytes -> bytes -> bytes -> bytes -> rng -> option CPST;
  cp_packet1 : CPST -> rng;
  cp_step2 : bytes -> bytes -> bytes -> bytes -> bytes -> rng -> option (rng * rng);
  cp_step3 : CPST -> bytes -> option rng
}.
Definition cpace_packet1 (C : cpace_crate) (st : CPST C) : bytes := bytes_of 48 (cp_packet1 C st).

(** base64 0.21, engine STANDARD (RFC 4648 with padding): the alphabet ... *)
Definition b64_char (x : Z) : Z :=
  if x <? 26 then 65 + x                 (* A-Z *)
  else if x <? 52 then 97 + (x - 26)     (* a-z *)
  else if x <? 62 then 48 + (x - 52)     (* 0-9 *)
  else if x =? 62 then 43                (* + *)
  else 47.                               (* / *)
(** ... and the encoder: three bytes to four characters, '=' (61) padding. *)
Fixpoint b64_encode (b : bytes) : bytes :=
  match b with
  | [] => []
  | [x] => [b64_char (x / 4); b64_char (x mod 4 * 16); 61; 61]
  | [x; y] => [b64_char (x / 4); b64_char (x mod 4 * 16 + y / 16); b64_char (y mod 16 * 4); 61]
  | x :: y :: z :: r =>
    b64_char (x / 4) :: b64_char (x mod 4 * 16 + y / 16) ::
    b64_char (y mod 16 * 4 + z / 64) :: b64_char (z mod 64) :: b64_encode r
  end.

(** cpace.rs 9-10. *)
Definition PROTO_ID_INIT : bytes := str "latke_cpace_initiator".
Definition PROTO_ID_RESP : bytes := str "latke_cpace_responder".

(** cpace.rs 12-21: [struct Cpace]. *)
Record cpace (C : cpace_crate) := Cpace {
  cp_state : option (CPST C);
  cp_step : nat;
  cp_done : bool;
  cp_key : option bytes;
  cp_ssid : bytes;
  cp_password : bytes
}.
Arguments Cpace {C}. Arguments cp_state {C}. Arguments cp_step {C}. Arguments cp_done {C}.
Arguments cp_key {C}. Arguments cp_ssid {C}. Arguments cp_password {C}.

(** cpace.rs 26-42: [new]. *)
Definition cpace_new (C : cpace_crate) (r : rng) (ssid password : bytes) (rl : role) : outcome (cpace C * rng) :=
  Ret (Cpace None (first_step rl) false None ssid (b64_encode password), r).

(** cpace.rs 48-108: [run]. [try_into().unwrap()] panics on a packet of the wrong length. *)
Definition cpace_run (C : cpace_crate) (s : cpace C) (os : rng) (m : bytes)
  : outcome (cpace C * res (option bytes) unit) :=
  match cp_step s with
  | 0%nat =>
    assert_ (List.length m =? 0)%nat
    (let! client := unwrap (cp_step1 C (cp_password s) PROTO_ID_INIT PROTO_ID_RESP (cp_ssid s) os) in
     Ret (Cpace (Some client) (cp_step s + 2) (cp_done s) (cp_key s) (cp_ssid s) (cp_password s),
          Ok (Some (cpace_packet1 C client))))
  | 1%nat =>
    let! packet := copy_exact 48 m in
    let! (k, p) := unwrap (cp_step2 C packet (cp_password s) PROTO_ID_INIT PROTO_ID_RESP (cp_ssid s) os) in
    Ret (Cpace (cp_state s) (cp_step s + 2) true (Some (bytes_of 32 k)) (cp_ssid s) (cp_password s),
         Ok (Some (bytes_of 32 p)))
  | 2%nat =>
    let! packet := copy_exact 32 m in
    let! st := unwrap (cp_state s) in
    let! k := unwrap (cp_step3 C st packet) in
    Ret (Cpace (cp_state s) (cp_step s + 2) true (Some (bytes_of 32 k)) (cp_ssid s) (cp_password s), Ok None)
  | _ => Panic
  end.

Definition CpacePake (C : cpace_crate) : pake := {|
  PST := cpace C; PERR := unit;
  pk_new := cpace_new C;
  pk_run := cpace_run C;
  pk_done := cp_done;                       (* cpace.rs 44-46 *)
  pk_fin := fun s => unwrap (cp_key s)      (* cpace.rs 110-112 *)
|}.

(** Correctness of the crate: whenever both sides' calls succeed on honest packets, the
    initiator's last call succeeds with the same key. *)
Definition cpace_correct (C : cpace_crate) : Prop :=
  forall pw ida idb ad r1 r2 st k p,
    cp_step1 C pw ida idb ad r1 = Some st ->
    cp_step2 C (cpace_packet1 C st) pw ida idb ad r2 = Some (k, p) ->
    exists k', cp_step3 C st (bytes_of 32 p) = Some k' /\ bytes_of 32 k' = bytes_of 32 k.

(* ------------------------------------------------------------------ *)
(** ** KC-SPAKE2 (kc_spake2.rs) *)

(** The spake2 crate (outside /repo): start_symmetric_with_rng and finish. *)
Record spake_crate := {
  SPST : Type;
  sp_start : bytes -> bytes -> rng -> SPST * bytes * rng;   (* password, identity *)
  sp_finish : SPST -> bytes -> option bytes
}.
(** Correctness of the crate: two sides with one password and identity finish on each
    other's messages with one key, of 32 bytes (SHA-256). *)
Definition spake_correct (S : spake_crate) : Prop :=
  forall pw id r1 r2,
    let '(s1, m1, _) := sp_start S pw id r1 in
    let '(s2, m2, _) := sp_start S pw id r2 in
    exists k, sp_finish S s1 m2 = Some k /\ sp_finish S s2 m1 = Some k /\ List.length k = 32%nat.

(** kc_spake2.rs 10. *)
Definition PROTO_ID : bytes := str "latke_kc_spake2".

(** kc_spake2.rs 12-25: [struct KcSpake2]. *)
Record kcspake (S : spake_crate) := KcSpake {
  kc_state : option (SPST S);
  kc_first : bytes;
  kc_step : nat;
  kc_done : bool;
  kc_key : option bytes;
  kc_macs : option (bytes * bytes);
  kc_password : bytes
}.
Arguments KcSpake {S}. Arguments kc_state {S}. Arguments kc_first {S}. Arguments kc_step {S}.
Arguments kc_done {S}. Arguments kc_key {S}. Arguments kc_macs {S}. Arguments kc_password {S}.

(** kc_spake2.rs 30-54: [new]. *)
Definition kc_new (S : spake_crate) (r : rng) (ssid password : bytes) (rl : role) : outcome (kcspake S * rng) :=
  let '(st, msg, r1) := sp_start S password ssid r in
  Ret (KcSpake (Some st) msg (first_step rl) false None None password, r1).

(** kc_spake2.rs 76-90 and 106-128: the 96 bytes derived from the PAKE key and transcript,
    split into the two MACs and the session key. *)
Definition kc_derive (P : prims) (password msg_i msg_r pake_key : bytes) : outcome (bytes * bytes * bytes) :=
  let! hk := from_prk pake_key in
  let h := expand P hk (password ++ PROTO_ID ++ msg_i ++ msg_r ++ pake_key) 96 in
  let! (macs, key) := split_at 64 h in
  let! (mac0, mac1) := split_at 32 macs in
  Ret (mac0, mac1, key).

(** kc_spake2.rs 60-155: [run].  [core::mem::replace(&mut pake_state, None)] empties the
    SPAKE2 state; the MACs and the key are stored before the received MAC is compared. *)
Definition kc_run (P : prims) (S : spake_crate) (s : kcspake S) (os : rng) (m : bytes)
  : outcome (kcspake S * res (option bytes) unit) :=
  match kc_step s with
  | 0%nat =>
    assert_ (List.length m =? 0)%nat
    (Ret (KcSpake (kc_state s) (kc_first s) (kc_step s + 2) (kc_done s) (kc_key s) (kc_macs s) (kc_password s),
          Ok (Some (kc_first s))))
  | 1%nat =>
    let! st := unwrap (kc_state s) in
    let! pake_key := unwrap (sp_finish S st m) in
    let! (mac0, mac1, key) := kc_derive P (kc_password s) m (kc_first s) pake_key in
    Ret (KcSpake None (kc_first s) (kc_step s + 2) (kc_done s) (Some key) (Some (mac0, mac1)) (kc_password s),
         Ok (Some (kc_first s ++ mac1)))
  | 2%nat =>
    let! (msg, mac) := split_last 32 m in
    let! st := unwrap (kc_state s) in
    let! pake_key := unwrap (sp_finish S st msg) in
    let! (mac0, mac1, key) := kc_derive P (kc_password s) (kc_first s) msg pake_key in
    if beq mac1 mac then
      Ret (KcSpake None (kc_first s) (kc_step s + 2) true (Some key) (Some (mac0, mac1)) (kc_password s),
           Ok (Some mac0))
    else
      Ret (KcSpake None (kc_first s) (kc_step s) (kc_done s) (Some key) (Some (mac0, mac1)) (kc_password s),
           Err tt)
  | 3%nat =>
    let! (mac0, mac1) := unwrap (kc_macs s) in
    if beq mac0 m then
      Ret (KcSpake (kc_state s) (kc_first s) (kc_step s + 2) true (kc_key s) (kc_macs s) (kc_password s), Ok None)
    else Ret (s, Err tt)
  | _ => Panic
  end.

Definition KcSpakePake (P : prims) (S : spake_crate) : pake := {|
  PST := kcspake S; PERR := unit;
  pk_new := kc_new S;
  pk_run := kc_run P S;
  pk_done := kc_done;                       (* kc_spake2.rs 56-58 *)
  pk_fin := fun s => unwrap (kc_key s)      (* kc_spake2.rs 157-159 *)
|}.
