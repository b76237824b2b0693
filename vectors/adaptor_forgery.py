#!/usr/bin/env python3
"""Runs the forgery of theories/PropertiesMixing.v (C91) on secp256k1 against the extracted model: 256
round objects of one signer receive their nonces, and are then finalized with adaptor points that the
other side names.  The other side is written here from BIP340 and BIP327; nothing of /repo is run.  Its
signature on a message that nobody signed must pass the check of BIP340 below and the model's
verify_single.  This is a test; no theorem depends on it.

Usage: build /verif/rocq first, then  python3 adaptor_forgery.py
"""
import hashlib, os, re, subprocess, sys, tempfile
HERE = os.path.dirname(os.path.abspath(__file__))
text = open(os.path.join(HERE, 'run_vectors.py')).read()
part = lambda name: re.search(name + r" = r'''(.*?)'''", text, re.S).group(1)
tmp = tempfile.mkdtemp()
open(tmp + '/ex.v', 'w').write(part('EXTRACT')); open(tmp + '/drv.ml', 'w').write(part('DRIVER'))
subprocess.run(['coqc', '-Q', os.path.join(HERE, '..', 'rocq', 'theories'), 'Verif', 'ex.v'], cwd=tmp, check=True, capture_output=True)
subprocess.run('ocamlfind ocamlopt -w -a -package zarith -linkpkg musig.mli musig.ml drv.ml -o drv', shell=True, cwd=tmp, check=True, capture_output=True)
drv = subprocess.Popen([tmp + '/drv'], stdin=subprocess.PIPE, stdout=subprocess.PIPE, text=True)
def model(*words):
    drv.stdin.write(' '.join(words) + '\n'); drv.stdin.flush(); return drv.stdout.readline().strip()

# secp256k1; None is the point at infinity.
p = 2 ** 256 - 2 ** 32 - 977
n = 0xFFFFFFFFFFFFFFFFFFFFFFFFFFFFFFFEBAAEDCE6AF48A03BBFD25E8CD0364141
G = (0x79BE667EF9DCBBAC55A06295CE870B07029BFCDB2DCE28D959F2815B16F81798,
     0x483ADA7726A3C4655DA4FBFC0E1108A8FD17B448A68554199C47D08FFB10D4B8)
def add(A, B):
    if A is None: return B
    if B is None: return A
    if A[0] == B[0]:
        if (A[1] + B[1]) % p == 0: return None
        l = 3 * A[0] * A[0] * pow(2 * A[1], -1, p) % p
    else:
        l = (B[1] - A[1]) * pow(B[0] - A[0], -1, p) % p
    x = (l * l - A[0] - B[0]) % p
    return (x, (l * (A[0] - x) - A[1]) % p)
def mul(A, k):
    R, k = None, k % n
    while k:
        if k & 1: R = add(R, A)
        A, k = add(A, A), k >> 1
    return R
even = lambda A: A[1] % 2 == 0
xb = lambda A: A[0].to_bytes(32, 'big')
cb = lambda A: bytes(33) if A is None else bytes([2 + A[1] % 2]) + xb(A)
def lift(x):
    y = pow((x ** 3 + 7) % p, (p + 1) // 4, p)
    assert x < p and y * y % p == (x ** 3 + 7) % p
    return (x, y if y % 2 == 0 else p - y)
def dec(b):
    if b == bytes(33): return None
    A = lift(int.from_bytes(b[1:], 'big'))
    return A if b[0] == 2 else (A[0], p - A[1])
def tagged(tag, m):
    t = hashlib.sha256(tag.encode()).digest()
    return hashlib.sha256(t + t + m).digest()
num = lambda tag, m: int.from_bytes(tagged(tag, m), 'big') % n
def schnorr_verify(m, pk, sig):
    P, r, s = lift(int.from_bytes(pk, 'big')), int.from_bytes(sig[:32], 'big'), int.from_bytes(sig[32:], 'big')
    if r >= p or s >= n: return False
    R = add(mul(G, s), mul(P, n - num('BIP0340/challenge', sig[:32] + pk + m)))
    return R is not None and even(R) and R[0] == r

L = 256
# The signer, whose secrets only [model] is given, and the other member of the group.
SK = '11' * 32
P = bytes.fromhex(model('base', SK))
y = 0x22
Y = cb(mul(G, y))
ctx = model('ctxrt', P.hex() + ',' + Y.hex(), '-')
# The second distinct key of the list, here Y, has coefficient 1.
a = num('KeyAgg coefficient', tagged('KeyAgg list', P + Y) + P)
Q = add(mul(dec(P), a), dec(Y))
g = 1 if even(Q) else -1
msg = b'a message that the signer signs'
# All nonces are exchanged.
mine = [mul(G, 5), mul(G, 7)]
class S: pass
sessions = []
for j in range(L):
    s = S(); s.seed = '%064x' % (j + 1)
    theirs = bytes.fromhex(model('fr', ctx, s.seed, '0', SK, msg.hex(), '-').split(' ')[0])
    theirs = [dec(theirs[:33]), dec(theirs[33:66])]
    agg = [add(theirs[0], mine[0]), add(theirs[1], mine[1])]
    b = num('MuSig/noncecoef', cb(agg[0]) + cb(agg[1]) + xb(Q) + msg)
    s.N, R = add(theirs[0], mul(theirs[1], b)), add(agg[0], mul(agg[1], b))
    s.T = [None, G]
    s.w = []
    for T in s.T:
        A = add(R, T)
        sign = 1 if even(A) else -1
        s.w.append((sign, sign * num('BIP0340/challenge', xb(A) + xb(Q) + msg) * a * g % n))
    s.share = 2 ** j * pow(s.w[1][1] - s.w[0][1], -1, n) % n
    sessions.append(s)
# The forgery is planned.
target = b'a message that nobody signed'
R = None
for s in sessions: R = add(R, mul(s.N, s.share))
e = num('BIP0340/challenge', xb(R) + xb(Q) + target)
eps = 1 if even(R) else -1
wanted = (eps * g * e * a - sum(s.share * s.w[0][1] for s in sessions)) % n
# The signer answers.
total = 0
for j, s in enumerate(sessions):
    i = wanted >> j & 1
    ans = model('sra', ctx, s.seed, '0', SK, msg.hex(), '1:' + (cb(mine[0]) + cb(mine[1])).hex(), cb(s.T[i]).hex())
    total += s.share * s.w[i][0] * int(ans, 16)
sig = xb(R) + ((eps * total + g * e * y) % n).to_bytes(32, 'big')
by_model = model('verify', xb(Q).hex(), sig.hex(), target.hex())
by_bip340 = schnorr_verify(target, xb(Q), sig)
bad = schnorr_verify(msg, xb(Q), sig)
print('signature', sig.hex(), 'model:', by_model, 'BIP340:', by_bip340, 'other message:', bad)
sys.exit(0 if by_model == 'ok' and by_bip340 and not bad else 1)
