#!/usr/bin/env python3
"""Runs the test vectors shipped with the crate (/repo/src/test_vectors, and the two RFC6979
vectors of /repo/src/deterministic.rs) against the Coq model, and then the concrete values in the
documentation examples and unit tests of the crate (read from the text of /repo).

The model is instantiated with secp256k1 and SHA-256 (theories/Secp256k1.v), extracted to OCaml
in a temporary directory, compiled there with zarith, and run on every vector.  This is a test
of the faithfulness of the model; no theorem depends on it.

Usage: build /verif/rocq first, then  python3 run_vectors.py
"""
import json, csv, os, re, subprocess, sys, tempfile
ROCQ = os.path.join(os.path.dirname(os.path.abspath(__file__)), '..', 'rocq', 'theories')
EXTRACT = r'''
From Coq Require Import Extraction ExtrOcamlBasic ExtrOcamlNativeString ExtrOcamlZBigInt ExtrOcamlNatInt.
From Verif Require Import Bytes Prims TaggedHashes KeyAgg Nonces Signature Signing SigAgg Bip340 Rounds Encoding Deterministic Secp256k1 Sha256.
Extraction Blacklist List String Nat.
Definition byte_of_Z (z : Z) := z2b z.
Definition Z_of_byte (b : Byte.byte) := b2z b.
Definition S0 := Secp (fun _ _ => 1%positive).
Extraction "musig.ml" S0 byte_of_Z Z_of_byte
 key_agg_new with_tweaks with_tweak with_taproot_tweak with_unspendable_taproot_tweak ctx_to_bytes ctx_from_bytes
 aggregated_pubkey not_zero
 parse_point parse_scalar parse_mscalar ser_point ser_mpoint parse_mpoint ser_scalar
 build secnonce_from_bytes secnonce_to_bytes pubnonce_from_bytes pubnonce_to_bytes aggnonce_from_bytes aggnonce_to_bytes agg_sum
 sign_partial sign_partial_adaptor verify_partial aggregate_partial_signatures compact compact_to_bytes compact_from_bytes
 sign_solo verify_single derive_nonce_rfc6979 sha256_fips public_nonce final_nonce
 aggregated_pubkey_untweaked spices_new sp_with_seckey sp_with_message first_round_new our_public_nonce fr_holdouts
 receive_nonce fr_is_complete fr_finalize fr_finalize_adaptor sign_for_aggregator aggregated_nonce our_signature sr_holdouts
 receive_signature sr_is_complete sr_finalize sr_finalize_adaptor builder_new
 lifted_from_bytes lifted_to_bytes lifted_encrypt adaptor_encrypt adapt reveal_secret adaptor_from_bytes adaptor_to_bytes
 verify_single_adaptor sign_solo_adaptor verify_single_lifted row_from_signature row_from_adaptor verify_batch
 ctx_from_hex pubnonce_from_hex secnonce_from_hex lifted_from_hex hex_encode base_mul fzero.
'''
DRIVER = r'''
open Musig
let p = s0
let zi = Big_int_Z.big_int_of_int
let hexv c = match c with '0'..'9' -> Char.code c - 48 | 'a'..'f' -> Char.code c - 87 | 'A'..'F' -> Char.code c - 55 | _ -> failwith "hex"
let bytes_of_hex s = List.init (String.length s / 2) (fun i -> byte_of_Z (zi (16 * hexv s.[2*i] + hexv s.[2*i+1])))
let hex_of_bytes l = String.concat "" (List.map (fun b -> Printf.sprintf "%02X" (Big_int_Z.int_of_big_int (z_of_byte b))) l)
let split c s = if s = "-" || s = "" then [] else String.split_on_char c s
exception E of string
let get m = function Some x -> x | None -> raise (E m)
let msg s = if s = "-" then [] else bytes_of_hex s
let pt s = get "point" (parse_point p (msg s))
let sc s = get "scalar" (parse_scalar p (msg s))
let ms s = get "mscalar" (parse_mscalar p (msg s))
let ve = function VE_UnknownKey -> "verify:UnknownKey" | VE_BadSignature -> "verify:BadSignature"
let se = function SE_UnknownKey -> "sign:UnknownKey" | SE_SelfVerifyFail -> "sign:SelfVerifyFail"
let ok f = function Ok x -> x | Err e -> raise (E (f e)) | Panic -> raise (E "panic")
let de = function BadHexFormat _ -> "dec:hex" | BadLength n -> "dec:len" ^ string_of_int n | InvalidPoint -> "dec:point" | InvalidScalar -> "dec:scalar" | Custom s -> "dec:" ^ s
let ctx keys tweaks =
  let c = ok (fun _ -> "keyagg") (key_agg_new p (List.map pt (split ',' keys))) in
  let ts = List.map (fun t -> match String.split_on_char ':' t with [a;b] -> (sc a, b = "1") | _ -> failwith "tw") (split ',' tweaks) in
  ok (fun _ -> "tweak") (with_tweaks p c ts)
let pn s = ok de (pubnonce_from_bytes p (msg s))
let an s = ok de (aggnonce_from_bytes p (msg s))
let sn s = ok de (secnonce_from_bytes p (msg s))
let opt f s = if s = "none" then None else Some (f s)
let em = fun _ -> "empty"
let fe = function FE_Incomplete -> "Incomplete" | FE_SigningError e -> se e | FE_InvalidAggregatedSignature e -> ve e
let reason = function OutOfRange n -> "OutOfRange" ^ string_of_int n | InconsistentContribution -> "Inconsistent" | InvalidSignature -> "InvalidSignature"
let ce = function RoundContributionError (i, r) -> string_of_int i ^ ":" ^ reason r
let ascii s = List.init (String.length s) (fun i -> byte_of_Z (zi (Char.code s.[i])))
let tg64 = { usize_bits = zi 64; overflow_checks = true }
let ctxh h = ok de (ctx_from_hex p tg64 (ascii h))
let bm k = base_mul p k
let fround c seed i sk m =
  ok (fun _ -> "index") (first_round_new p (ctxh c) (msg seed) (int_of_string i) (sp_with_message p (sp_with_seckey p (spices_new p) (sc sk)) (msg m)))
let recvn r i n = let (r, o) = receive_nonce p r i n in ok ce o; r
let recvs r i s = let (r, o) = receive_signature p r i s in ok ce o; r
let indexed f l = List.map (fun x -> match String.split_on_char ':' x with [i; n] -> (int_of_string i, f n) | _ -> failwith "ix") (split ',' l)
let ints l = "[" ^ String.concat "," (List.map string_of_int l) ^ "]"
let run = function
 | ["keyagg"; keys; tweaks] -> hex_of_bytes (ser_point p (aggregated_pubkey p (ctx keys tweaks)))
 | ["ctxrt"; keys; tweaks] ->
   let c = ctx keys tweaks in
   let b = ctx_to_bytes p c in
   let tg = { usize_bits = zi 64; overflow_checks = true } in
   let d = ok de (ctx_from_bytes p tg b) in
   if d.ordered_pubkeys = c.ordered_pubkeys then hex_of_bytes b else raise (E "rt")
 | ["nonceagg"; ns] -> hex_of_bytes (aggnonce_to_bytes p (agg_sum p (List.map pn (split ',' ns))))
 | ["noncegen"; seed; sk; pk; agg; m; ex] ->
   let b = { nonce_seed_bytes = msg seed; b_seckey = opt sc sk; b_pubkey = opt pt pk; b_aggregated_pubkey = opt (fun s -> get "point" (lift_x p (msg s))) agg;
             b_message = opt msg m; b_extra_inputs = (match opt msg ex with None -> [] | Some x -> [x]) } in
   let s = build p b in
   hex_of_bytes (secnonce_to_bytes p s) ^ " " ^ hex_of_bytes (pubnonce_to_bytes p (public_nonce p s))
 | ["secnonce"; s] -> hex_of_bytes (secnonce_to_bytes p (sn s))
 | ["sign"; keys; tweaks; sk; s; a; m] -> hex_of_bytes (ser_scalar p (ok se (sign_partial p (ctx keys tweaks) (sc sk) (sn s) (an a) (msg m))))
 | ["pverify"; keys; tweaks; sg; a; pk; n; m] -> ignore (ok ve (verify_partial p (ctx keys tweaks) (ms sg) (an a) (pt pk) (pn n) (msg m))); "ok"
 | ["sigagg"; keys; tweaks; a; sigs; m] ->
   let l = ok ve (aggregate_partial_signatures p (ctx keys tweaks) (an a) (List.map ms (split ',' sigs)) (msg m)) in
   hex_of_bytes (compact_to_bytes p (compact p l))
 | ["solo"; sk; m; aux] -> hex_of_bytes (compact_to_bytes p (compact p (ok (fun _ -> "") (sign_solo p (sc sk) (msg m) (msg aux)))))
 | ["verify"; pk; sg; m] -> ignore (ok ve (verify_single p (get "point" (lift_x p (msg pk))) (ok de (compact_from_bytes p (msg sg))) (msg m))); "ok"
 | ["rfc"; sk; m] -> hex_of_bytes (ser_scalar p (sval p (get "fuel" (derive_nonce_rfc6979 p 10 (sc sk) (msg m)))))
 | ["agg"; keys; tweaks] ->
   let c = ctx keys tweaks in
   hex_of_bytes (ser_point p (aggregated_pubkey p c)) ^ " " ^ string_of_bool c.parity_acc ^ " " ^ hex_of_bytes (ser_scalar p c.tweak_acc)
 | ["untweaked"; keys; tweaks] -> hex_of_bytes (ser_point p (ok em (aggregated_pubkey_untweaked p (ctx keys tweaks))))
 | ["taproot"; keys; root] -> hex_of_bytes (ser_point p (aggregated_pubkey p (ok (fun _ -> "tweak") (with_taproot_tweak p (ctx keys "-") (msg root)))))
 | ["unspendable"; keys] -> hex_of_bytes (ser_point p (aggregated_pubkey p (ok (fun _ -> "tweak") (with_unspendable_taproot_tweak p (ctx keys "-")))))
 | ["ctxhex"; h] -> hex_of_bytes (ctx_to_bytes p (ctxh h))
 | ["base"; sk] -> hex_of_bytes (ser_point p (bm (sc sk)))
 | ["build"; seed; pk; m] ->
   hex_of_bytes (secnonce_to_bytes p (build p { (builder_new p (msg seed)) with b_pubkey = opt pt pk; b_message = opt msg m }))
 | ["fr"; c; seed; i; sk; m; ns] ->
   let r = List.fold_left (fun r x -> recvn r (fst x) (snd x)) (fround c seed i sk m) (indexed pn ns) in
   hex_of_bytes (pubnonce_to_bytes p (our_public_nonce p r)) ^ " " ^ ints (fr_holdouts p r) ^ " " ^ string_of_bool (fr_is_complete p r)
 | ["sr"; c; seed; i; sk; m; ns; ss] ->
   let r = List.fold_left (fun r x -> recvn r (fst x) (snd x)) (fround c seed i sk m) (indexed pn ns) in
   let r = ok fe (fr_finalize p r (sc sk) (msg m)) in
   let o = ok em (our_signature p r) in
   let r = List.fold_left (fun r x -> recvs r (fst x) (snd x)) r (indexed ms ss) in
   hex_of_bytes (ser_scalar p o) ^ " " ^ hex_of_bytes (aggnonce_to_bytes p (aggregated_nonce p r)) ^ " " ^ ints (sr_holdouts p r) ^ " " ^ string_of_bool (sr_is_complete p r)
   ^ " " ^ (match sr_finalize p r with Ok l -> hex_of_bytes (lifted_to_bytes p l) | Err e -> fe e | Panic -> "panic")
 | ["sra"; c; seed; i; sk; m; ns; t] ->
   let r = List.fold_left (fun r x -> recvn r (fst x) (snd x)) (fround c seed i sk m) (indexed pn ns) in
   hex_of_bytes (ser_scalar p (ok em (our_signature p (ok fe (fr_finalize_adaptor p r (sc sk) (get "point" (parse_mpoint p (msg t))) (msg m))))))
 | ["sfa"; c; seed; i; sk; m; a] -> hex_of_bytes (ser_scalar p (ok se (sign_for_aggregator p (fround c seed i sk m) (sc sk) (msg m) (an a))))
 | ["adaptors"; c; seeds; sks; m; t] ->
   let sks = split ',' sks and seeds = split ',' seeds and t = sc t in
   let tp = pval p (bm t) in
   let rs = List.mapi (fun i (sd, sk) -> (sk, fround c sd (string_of_int i) sk m)) (List.combine seeds sks) in
   let pns = List.mapi (fun i (_, r) -> (i, our_public_nonce p r)) rs in
   let srs = List.map (fun (sk, r) -> ok fe (fr_finalize_adaptor p (List.fold_left (fun r (i, n) -> recvn r i n) r pns) (sc sk) tp (msg m))) rs in
   let ss = List.mapi (fun i r -> (i, ok em (our_signature p r))) srs in
   let q = aggregated_pubkey p (ctxh c) in
   let outs = List.map (fun r ->
     let a = ok fe (sr_finalize_adaptor p (List.fold_left (fun r (i, x) -> recvs r i x) r ss)) in
     ignore (ok ve (verify_single_adaptor p q a (msg m) tp));
     let l = get "adapt" (adapt p a (sval p t)) in
     ignore (ok ve (verify_single_lifted p q l (msg m)));
     ignore (ok ve (verify_batch p [row_from_adaptor p q (msg m) a tp; row_from_signature p q (msg m) l]));
     if hex_of_bytes (ser_scalar p (get "reveal" (reveal_secret p a l))) <> hex_of_bytes (ser_scalar p (sval p t)) then raise (E "secret");
     hex_of_bytes (lifted_to_bytes p l)) srs in
   if List.for_all (fun x -> x = List.hd outs) outs then "ok" else "differ"
 | ["soloadaptor"; sk; m; aux; t] ->
   let t = sc t and k = sc sk in
   let tp = pval p (bm t) in
   let a = sign_solo_adaptor p k (msg m) (msg aux) tp in
   ignore (ok ve (verify_single_adaptor p (bm k) a (msg m) tp));
   let l = get "adapt" (adapt p a (sval p t)) in
   ignore (ok ve (verify_single_lifted p (bm k) l (msg m)));
   if hex_of_bytes (ser_scalar p (get "reveal" (reveal_secret p a l))) = hex_of_bytes (ser_scalar p (sval p t)) then "ok" else "secret"
 | ["encrypt"; sg; t1; t2; t12] ->
   let l = ok de (lifted_from_bytes p (msg sg)) in
   hex_of_bytes (lifted_to_bytes p (get "adapt" (adapt p (adaptor_encrypt p (lifted_encrypt p l (sc t1)) (sc t2)) (ms t12))))
 | ["lifted"; sg] -> hex_of_bytes (lifted_to_bytes p (ok de (lifted_from_bytes p (msg sg))))
 | ["adaptor"; sg] -> hex_of_bytes (adaptor_to_bytes p (ok de (adaptor_from_bytes p (msg sg))))
 | ["sha"; m] -> hex_of_bytes (sha256_fips (msg m))
 | _ -> "badcmd"
let () = try while true do
  let l = input_line stdin in
  print_endline (try run (String.split_on_char ' ' l) with E e -> "ERR " ^ e); 
 done with End_of_file -> ()
'''
tmp = tempfile.mkdtemp()
open(tmp + '/ex.v', 'w').write(EXTRACT)
open(tmp + '/drv.ml', 'w').write(DRIVER)
subprocess.run(['coqc', '-Q', os.path.abspath(ROCQ), 'Verif', 'ex.v'], cwd=tmp, check=True, capture_output=True)
subprocess.run('ocamlfind ocamlopt -w -a -package zarith -linkpkg musig.mli musig.ml drv.ml -o drv', shell=True, cwd=tmp, check=True, capture_output=True)
V='/repo/src/test_vectors/'
J=lambda n: json.load(open(V+n+'_vectors.json'))
cmds=[]; exp=[]; lab=[]
h=lambda s: s if s else '-'
def q(label, cmd, e): cmds.append(cmd); exp.append(e); lab.append(label)
def sel(l,ix): return ','.join(l[i] for i in ix) or '-'
def tw(d,t): return ','.join(d['tweaks'][i]+':'+('1' if x else '0') for i,x in zip(t['tweak_indices'],t['is_xonly'])) or '-'
d=J('key_agg')
for i,t in enumerate(d['valid_test_cases']): q(f'keyagg{i}', f"keyagg {sel(d['pubkeys'],t['key_indices'])} -", lambda r,t=t: r[2:]==t['expected'] and len(r)==66)
for i,t in enumerate(d['error_test_cases']): q(f'keyagg-err{i} {t["comment"]}', f"keyagg {sel(d['pubkeys'],t['key_indices'])} {tw(d,t)}", lambda r: r.startswith('ERR') and 'panic' not in r)
d=J('nonce_agg')
for i,t in enumerate(d['valid_test_cases']): q(f'nonceagg{i}', f"nonceagg {sel(d['pnonces'],t['pnonce_indices'])}", lambda r,t=t: r==t['expected'])
for i,t in enumerate(d['error_test_cases']): q(f'nonceagg-err{i}', f"nonceagg {sel(d['pnonces'],t['pnonce_indices'])}", lambda r: r.startswith('ERR dec'))
d=J('nonce_gen')
for i,t in enumerate(d['test_cases']): q(f'noncegen{i}', f"noncegen {t['rand']} {t['sk']} {t['pk']} {t['aggpk']} {h(t['msg'])} {h(t['extra_in'])}", lambda r,t=t: r==t['expected_secnonce'][:128]+' '+t['expected_pubnonce'])
for i,t in enumerate(d['test_cases']): q(f'secnonce97-{i}', f"secnonce {t['expected_secnonce']}", lambda r,t=t: r==t['expected_secnonce'][:128])
d=J('sign_verify')
for i,t in enumerate(d['valid_test_cases']):
  K=sel(d['pubkeys'],t['key_indices']); m=h(d['msgs'][t['msg_index']]); a=d['aggnonces'][t['aggnonce_index']]
  q(f'sv-agg{i}', f"nonceagg {sel(d['pnonces'],t['nonce_indices'])}", lambda r,a=a: r==a)
  q(f'sign{i}', f"sign {K} - {d['sk']} {d['secnonces'][0]} {a} {m}", lambda r,t=t: r==t['expected'])
  q(f'pverify{i}', f"pverify {K} - {t['expected']} {a} {d['pubkeys'][t['key_indices'][t['signer_index']]]} {d['pnonces'][t['nonce_indices'][t['signer_index']]]} {m}", lambda r: r=='ok')
for i,t in enumerate(d['sign_error_test_cases']):
  K=sel(d['pubkeys'],t['key_indices']); m=h(d['msgs'][t['msg_index']]); a=d['aggnonces'][t['aggnonce_index']]
  q(f'sign-err{i} {t["comment"][:50]}', f"sign {K} - {d['sk']} {d['secnonces'][t['secnonce_index']]} {a} {m}", lambda r: r.startswith('ERR') and 'panic' not in r)
for i,t in enumerate(d['verify_fail_test_cases']):
  K=sel(d['pubkeys'],t['key_indices']); m=h(d['msgs'][t['msg_index']]); 
  q(f'vfail{i}', f"pverify {K} - {t['sig']} {d['aggnonces'][0]} {d['pubkeys'][t['key_indices'][t['signer_index']]]} {d['pnonces'][t['nonce_indices'][t['signer_index']]]} {m}", lambda r: r in('ERR verify:BadSignature','ERR mscalar'))
for i,t in enumerate(d['verify_error_test_cases']):
  K=sel(d['pubkeys'],t['key_indices']); m=h(d['msgs'][t['msg_index']]); 
  q(f'verr{i}', f"pverify {K} - {t['sig']} {d['aggnonces'][0]} {d['pubkeys'][t['key_indices'][t['signer_index']]]} {d['pnonces'][t['nonce_indices'][t['signer_index']]]} {m}", lambda r: r.startswith('ERR dec') or r=='ERR point')
d=J('tweak')
for i,t in enumerate(d['valid_test_cases']):
  K=sel(d['pubkeys'],t['key_indices'])
  q(f'tw-ctx{i}', f"ctxrt {K} {tw(d,t)}", lambda r: not r.startswith('ERR'))
  q(f'tw-sign{i}', f"sign {K} {tw(d,t)} {d['sk']} {d['secnonce']} {d['aggnonce']} {d['msg']}", lambda r,t=t: r==t['expected'])
  q(f'tw-ver{i}', f"pverify {K} {tw(d,t)} {t['expected']} {d['aggnonce']} {d['pubkeys'][t['key_indices'][t['signer_index']]]} {d['pnonces'][t['nonce_indices'][t['signer_index']]]} {d['msg']}", lambda r: r=='ok')
for i,t in enumerate(d['error_test_cases']):
  q(f'tw-err{i}', f"sign {sel(d['pubkeys'],t['key_indices'])} {tw(d,t)} {d['sk']} {d['secnonce']} {d['aggnonce']} {d['msg']}", lambda r: r=='ERR scalar')
d=J('sig_agg')
for i,t in enumerate(d['valid_test_cases']):
  K=sel(d['pubkeys'],t['key_indices'])
  q(f'sa-agg{i}', f"nonceagg {sel(d['pnonces'],t['nonce_indices'])}", lambda r,t=t: r==t['aggnonce'])
  q(f'sa{i}', f"sigagg {K} {tw(d,t)} {t['aggnonce']} {sel(d['psigs'],t['psig_indices'])} {d['msg']}", lambda r,t=t: r==t['expected'])
for i,t in enumerate(d['error_test_cases']):
  q(f'sa-err{i}', f"sigagg {sel(d['pubkeys'],t['key_indices'])} {tw(d,t)} {t['aggnonce']} {sel(d['psigs'],t['psig_indices'])} {d['msg']}", lambda r: r=='ERR mscalar')
for t in csv.DictReader(open(V+'bip340_vectors.csv')):
  if t['secret key']:
    q('bip340-sign'+t['index'], f"solo {t['secret key']} {h(t['message'])} {t['aux_rand']}", lambda r,t=t: r==t['signature'])
  q('bip340-ver'+t['index']+t['comment'], f"verify {t['public key']} {t['signature']} {h(t['message'])}", lambda r,t=t: (r=='ok')==(t['verification result']=='TRUE') and 'panic' not in r)
for m in ('sample','test'):
  q('rfc '+m, f"rfc C9AFA9D845BA75166B5C215767B1D6934E50C3DB36E89B127B8A622B120F6721 {m.encode().hex()}", lambda r,m=m: r=={'sample':'A6E3C57DD01ABE90086538398355DD4C3B17AA873382B0F24D6129493D8AAD60','test':'D16B6AE827F17175E040871A1C7EC3500192C4C92677336EC2537ACAEE0008E0'}[m])
# The documentation examples and unit tests: every string literal of hexadecimal digits in the given
# lines of a file of /repo, in order (a literal may be continued over several lines).
def lits(path, a, b):
  t=''.join(re.sub(r'^\s*(///|#|//)?', '', l) for l in open('/repo/'+path).read().split('\n')[a-1:b])
  t=re.sub(r'\\\s*','',t)
  return [x for x in re.findall(r'"([0-9a-fA-F]+)"', t) if len(x)>=64]
eq=lambda *w: (lambda r: r.upper()==' '.join(w).upper())
A='doc/API.md'
K=lits(A,28,38); AGG,=lits(A,50,55); q('api-keyagg', 'keyagg '+','.join(K)+' -', eq(AGG))
CTX,=lits(A,86,91); SK,=lits(A,94,96); q('api-ctx', 'ctxrt '+','.join(K)+' -', eq(CTX)); q('api-ctxhex', 'ctxhex '+CTX, eq(CTX))
SEED='AC'*32; M='hello interwebz!'.encode().hex()
PN,=lits(A,124,128); N0,=lits(A,138,141); N1,=lits(A,152,155); PS,=lits(A,170,173); S0,=lits(A,177,179); S1,=lits(A,192,194); FIN,=lits(A,206,208)
AN,=lits(A,505,506); fr=f'{CTX} {SEED} 2 {SK} {M}'; nn=f'0:{N0},1:{N1}'
q('api-first0', f'fr {fr} -', eq(PN,'[0,1]','false')); q('api-first1', f'fr {fr} 0:{N0}', eq(PN,'[1]','false')); q('api-first2', f'fr {fr} {nn}', eq(PN,'[]','true'))
q('api-second0', f'sr {fr} {nn} -', eq(PS,AN,'[0,1]','false','Incomplete')); q('api-second1', f'sr {fr} {nn} 0:{S0}', eq(PS,AN,'[1]','false','Incomplete'))
q('api-second2', f'sr {fr} {nn} 0:{S0},1:{S1}', eq(PS,AN,'[]','true',FIN))
q('api-early', f'sr {fr} 0:{N0} -', eq('ERR Incomplete')); q('api-bad', f'sr {fr} {nn} 0:{S1}', eq('ERR 0:InvalidSignature'))
q('api-verify', f'verify {AGG[2:]} {FIN} {M}', eq('ok')); q('api-aggnonce', f'nonceagg {N0},{N1},{PN}', eq(AN)); q('api-sfa', f'sfa {fr} {AN}', eq(PS))
q('api-sigagg', f"sigagg {','.join(K)} - {AN} {S0},{S1},{PS} {M}", eq(FIN))
q('api-noncegen', f'noncegen {SEED} {SK} {K[2]} {AGG[2:]} {M} 00000002', lambda r: r.split(' ')[1:]==[PN.upper()])
for i,(k,n,g) in enumerate(zip(K,(N0,N1,PN),(S0,S1,PS))): q(f'api-pverify{i}', f"pverify {','.join(K)} - {g} {AN} {k} {n} {M}", eq('ok'))
CJ,J0,J1,JS=lits(A,625,637); q('api-json-ctx', f'ctxhex {CJ}', eq(CJ)); q('api-json-nonces', f'nonceagg {J0},{J1}', lambda r: len(r)==132); q('api-json-secnonce', f'secnonce {JS}', eq(JS))
R='src/rounds.rs'
SKS=lits(R,470,480); RN=(N0,N1,PN); RS=(S0,S1,PS)
for i,k in enumerate(SKS):
  q(f'rounds-key{i}', f'base {k}', eq(K[i])); f=f'{CTX} {SEED} {i} {k} {M}'; ns=','.join(f'{j}:{n}' for j,n in enumerate(RN)); ss=','.join(f'{j}:{n}' for j,n in enumerate(RS))
  q(f'rounds-nonce{i}', f'fr {f} -', lambda r,i=i: r.startswith(RN[i].upper()))
  q(f'rounds-session{i}', f'sr {f} {ns} {ss}', eq(RS[i],AN,'[]','true',FIN))
q('rounds-inconsistent', f'fr {CTX} {SEED} 0 {SKS[0]} {M} 0:{N0},1:{N1},2:{PN},2:{N1}', eq('ERR 2:Inconsistent')); q('rounds-range', f'fr {CTX} {SEED} 0 {SKS[0]} {M} 4:{N1}', eq('ERR 4:OutOfRange3'))
q('rounds-wrong', f'sr {CTX} {SEED} 0 {SKS[0]} {M} {ns} {ss},2:{S1}', eq('ERR 2:InvalidSignature')); q('rounds-range2', f'sr {CTX} {SEED} 0 {SKS[0]} {M} {ns} {ss},4:{S1}', eq('ERR 4:OutOfRange3'))
N='src/nonces.rs'
pk,sn=lits(N,159,178); q('nonces-build', f"build {'AB'*32} {pk} {'hello world'.encode().hex()}", eq(sn)); a,b,c=lits(N,566,580); q('nonces-sum', f'nonceagg {a},{b}', eq(c))
G='src/key_agg.rs'
k=lits(G,62,72); e,=lits(G,358,362); q('keyagg-doc', 'keyagg '+','.join(k)+' -', eq(e))
*k,t,e=lits(G,176,199); q('keyagg-untweaked', f"untweaked {','.join(k)} {t}:0", eq(e)); q('keyagg-untweaked2', f"untweaked {','.join(k)} {t}:1", eq(e)); q('keyagg-pair', f"keyagg {','.join(k)} -", eq(e))
x=lits(G,684,762); k=','.join(x[:3]); q('keyagg-tweaks', f'agg {k} {x[3]}:1,{x[4]}:1,{x[5]}:0,{x[6]}:0', eq(x[7],'true',x[8])); q('keyagg-taproot', f'taproot {k} {x[9]}', eq(x[10])); q('keyagg-unspendable', f'unspendable {k}', eq(x[11]))
x=lits(G,770,884); L=open('/repo/'+G).read().split('\n')[769:884]; fl=[w.strip()=='true,' for w in L if w.strip() in ('true,','false,')]
while x:
  k=[]; t=[]
  while len(x[0])==66: k.append(x.pop(0))
  while len(x[0])==64: t.append(x.pop(0)+(':1' if fl.pop(0) else ':0'))
  e=x.pop(0); q('keyagg-ser', f"ctxrt {','.join(k)} {','.join(t) or '-'}", eq(e)); q('keyagg-deser', f'ctxhex {e}', eq(e))
D='doc/adaptor_signatures.md'
g,=lits(D,226,233); q('adaptor-encrypt', f"encrypt {g} {'55'*32} {'66'*32} {'BB'*32}", eq(g))
q('adaptor-sessions', f"adaptors {CTX} {'11'*32},{'22'*32},{'33'*32} {','.join(SKS)} {'danger, will robinson!'.encode().hex()} {'77'*32}", eq('ok'))
q('adaptor-solo', f"soloadaptor {SKS[0]} {'hello world!'.encode().hex()} {'AA'*32} {'77'*32}", eq('ok'))
g,=lits('src/signature.rs',114,117); q('lifted', f'lifted {g}', eq(g)); g,=lits('src/signature.rs',230,233); q('adaptor', f'adaptor {g}', eq(g))
out=subprocess.run([tmp + '/drv'],input='\n'.join(cmds)+'\n',capture_output=True,text=True)
rs=out.stdout.split('\n'); print(out.stderr[-500:])
bad=0
for l,c,e,r in zip(lab,cmds,exp,rs):
  if not e(r): bad+=1; print('FAIL',l,c[:200],'->',r)
print(len(cmds),'run',bad,'failed', len(rs))
sys.exit(1 if bad or len(rs) != len(cmds) + 1 else 0)
