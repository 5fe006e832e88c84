#!/usr/bin/env python3
"""Fidelity test of the Dilithium2 model (not part of any proof).

Extracts keypair_c, sign_c and verify_c of rocq/theories/DilShake2.v (Dilithium2 together with the
modelled fips202.c, nothing replaced) to OCaml, in a temporary directory, runs PQClean's NIST
known-answer case on them and compares the SHA-256 of the transcript with the value that the
repository publishes in pqclean/crypto_sign/dilithium2/META.yml (nistkat-sha256).

Usage: python3 validation/dilithium_kat.py   (after building rocq/; needs coqc and ocamlfind/ocamlopt)
"""
import hashlib, os, re, subprocess, sys, tempfile
here = os.path.dirname(os.path.abspath(__file__))
theories = os.path.join(here, "..", "rocq", "theories")
META = "/repo/pqcrypto/pqcrypto-dilithium/pqclean/crypto_sign/dilithium2/META.yml"
EXTRACT = """From Coq Require Import ZArith List Extraction ExtrOcamlBasic ExtrOcamlNatInt.
From Verif Require Import Base DilArith DilShake2.
Extraction "dil.ml" keypair_c sign_c verify_c Z.of_nat Z.to_nat.
"""
MAIN = r"""open Dil
let unhex h = List.init (String.length h/2) (fun i -> Z.of_nat (int_of_string ("0x"^String.sub h (2*i) 2)))
let hex l = String.concat "" (List.map (fun z -> Printf.sprintf "%02X" (Z.to_nat z)) l)
let get = function CRet a -> a | CUB -> failwith "UB" | CFuel -> failwith "fuel"
let () =
  let coins = unhex Sys.argv.(1) and m = unhex Sys.argv.(2) in
  let (pk,sk) = get (keypair_c 1000 coins) in
  Printf.printf "pk = %s\nsk = %s\n%!" (hex pk) (hex sk);
  let s = get (sign_c 1000 1000 m sk) in
  let sm = s @ m in
  Printf.printf "smlen = %d\nsm = %s\n%!" (List.length sm) (hex sm);
  prerr_endline (if get (verify_c 1000 s m pk) then "verifies" else "DOES NOT VERIFY");
  let bad = List.mapi (fun i v -> if i = 100 then Z.of_nat (Z.to_nat v lxor 1) else v) s in
  prerr_endline (if get (verify_c 1000 bad m pk) then "tampered ACCEPTED" else "tampered rejected")
"""
# AES-256
def xt(a): return ((a<<1)^0x1b)&0xff if a&0x80 else a<<1
def gm(a,b):
    r=0
    while b:
        if b&1:r^=a
        a=xt(a);b>>=1
    return r
sb=[0]*256
p=q=1
while True:
    p=p^((p<<1)&0xff)^(0x1b if p&0x80 else 0)
    q^=q<<1;q^=q<<2;q^=q<<4;q&=0xff
    if q&0x80:q^=0x09
    r=lambda x,s:((x<<s)|(x>>(8-s)))&0xff
    sb[p]=q^r(q,1)^r(q,2)^r(q,3)^r(q,4)^0x63
    if p==1:break
sb[0]=0x63
def ks(key):
    w=[list(key[4*i:4*i+4]) for i in range(8)];rc=1
    for i in range(8,60):
        t=list(w[i-1])
        if i%8==0:
            t=t[1:]+t[:1];t=[sb[x] for x in t];t[0]^=rc;rc=xt(rc)
        elif i%8==4:t=[sb[x] for x in t]
        w.append([a^b for a,b in zip(w[i-8],t)])
    return w
def aes(key,blk):
    w=ks(key);s=list(blk)
    ark=lambda s,r:[s[4*c+i]^w[4*r+c][i] for c in range(4) for i in range(4)]
    s=ark(s,0)
    for r in range(1,15):
        s=[sb[x] for x in s]
        s=[s[4*((c+i)%4)+i] for c in range(4) for i in range(4)]
        if r<14:
            o=[]
            for c in range(4):
                a=s[4*c:4*c+4]
                o+=[gm(a[0],2)^gm(a[1],3)^a[2]^a[3],a[0]^gm(a[1],2)^gm(a[2],3)^a[3],a[0]^a[1]^gm(a[2],2)^gm(a[3],3),gm(a[0],3)^a[1]^a[2]^gm(a[3],2)]
            s=o
        s=ark(s,r)
    return bytes(s)
assert aes(bytes(range(32)),bytes.fromhex("00112233445566778899aabbccddeeff")).hex()=="8ea2b7ca516745bfeafc49904b496089"
class D:
    def __init__(s,e): s.k=bytes(32);s.v=0;s.up(e)
    def inc(s): s.v=(s.v+1)%(1<<128); return aes(s.k,s.v.to_bytes(16,'big'))
    def up(s,d):
        t=b''.join(s.inc() for _ in range(3))
        if d: t=bytes(a^b for a,b in zip(t,d))
        s.k=t[:32];s.v=int.from_bytes(t[32:],'big')
    def get(s,n):
        o=b''
        while len(o)<n:o+=s.inc()
        s.up(None);return o[:n]
d = D(bytes(range(48))); seed = d.get(48); m = d.get(33)
coins = D(seed).get(32)
with tempfile.TemporaryDirectory() as t:
    open(os.path.join(t, "ex.v"), "w").write(EXTRACT)
    open(os.path.join(t, "main.ml"), "w").write(MAIN)
    subprocess.run(["coqc", "-Q", theories, "Verif", "ex.v"], cwd=t, check=True, stdout=subprocess.DEVNULL)
    for f in ("dil.mli",):
        if os.path.exists(os.path.join(t, f)): os.remove(os.path.join(t, f))
    subprocess.run(["ocamlopt", "-O3", "-w", "-a", "dil.ml", "main.ml", "-o", "kat"], cwd=t, check=True, stderr=subprocess.DEVNULL)
    r = subprocess.run(["./kat", coins.hex(), m.hex()], cwd=t, stdout=subprocess.PIPE, check=True)
out = "count = 0\nseed = %s\nmlen = 33\nmsg = %s\n" % (seed.hex().upper(), m.hex().upper()) + r.stdout.decode()
got = hashlib.sha256(out.encode()).hexdigest()
want = re.search(r"nistkat-sha256: *([0-9a-f]{64})", open(META).read()).group(1)
print("model   ", got); print("META.yml", want)
sys.exit(0 if got == want else 1)
