#!/usr/bin/env python3
"""Generates theories/EinsumLemmas.v: what each einsum string used in /repo/nnj computes."""
strings = """b,bi->bi
b,bij->bij
bchw->bc
bi,bi->bi
bi,bii,bi->bi
bi,bij->bj
bi,bik,bk->bik
bi,bj->bij
bi,bji->bj
bi,bjk->bjik
bii -> bi
bii->bi
bij,bj,bij->bi
bij,bj,bji->bi
bij,bj,bjl->bil
bij,bj,blj->bil
bij,bj->bi
bij,bj->bij
bij,bjk,bik->bi
bij,bjk,bki->bi
bij,bjk,blk->bil
bij,bjk->bik
bij,bkq->bkiqj
bij,jk->bik
bj,bi->bij
bj,bii->bij
bj,bj->bj
bj,jk->bk
bji,bjk,bkl->bil
bk,ij->bijk
bkj,bj->bk
bkji,bj->bki
bri,bj->brij
bvchw->bvc
chwv->cv
kj,bj->bk
kj,bji->bki
mn,bn,kn->bmk
mn,bn,mn->bm
mn,bnj,kj->bmk
mn,bnj,mj->bm
nm,bn,nk->bmk
nm,bn,nm->bm
nm,bnj,jk->bmk
nm,bnj,jm->bm""".split("\n")
out = []
out.append('''(** What each einsum string used in /repo/nnj computes (generated by tools/gen_einsum.py).
    Sizes are n_<label>; the statement is the defining sum of products. *)
From Coq Require Import String Ascii List Arith ZArith Lia Bool.
From Verif Require Import Scalar Sums Tensor TensorLemmas.
Import ListNotations.
Local Open Scope nat_scope.
Local Open Scope list_scope.

Definition tab5 {A} n m p q r (f : nat -> nat -> nat -> nat -> nat -> A) : tensor A :=
  tab [n; m; p; q; r] (fun x => f (i_ 0 x) (i_ 1 x) (i_ 2 x) (i_ 3 x) (i_ 4 x)).

(** size-1 broadcasting does nothing on in-range indices *)
Lemma bc_idx n i : i < n -> (if Nat.eqb n 1 then 0 else i) = i.
Proof. intros. destruct (Nat.eqb_spec n 1); lia. Qed.

Lemma add_size_same e l n : lookup l e = Some n -> add_size (Ok e) (l, n) = Ok e.
Proof. intros E. unfold add_size, bind, fst, snd. rewrite E, Nat.eqb_refl. reflexivity. Qed.
Lemma add_size_new e l n : lookup l e = None -> add_size (Ok e) (l, n) = Ok (set_env l n e).
Proof. intros E. unfold add_size, bind, fst, snd. now rewrite E. Qed.

Ltac einsum_tac :=
  intros;
  unfold einsum;
  match goal with |- context [parse_einsum ?s] =>
    let v := eval vm_compute in (parse_einsum s) in change (parse_einsum s) with v end;
  cbv beta iota;
  unfold sizes, rank;
  repeat match goal with H : shape ?t = _ |- context [shape ?t] => rewrite H end;
  repeat match goal with |- context [Nat.eqb (List.length ?a) (List.length ?b)] =>
    change (Nat.eqb (List.length a) (List.length b)) with true; cbv iota end;
  cbn [combine fold_left];
  repeat first [rewrite add_size_new by reflexivity | rewrite add_size_same by reflexivity];
  cbn -[tab operand Nat.mul];
  apply (f_equal Ok); apply tab_ext;
  let idx := fresh "idx" in let V := fresh "V" in intros idx V; didx idx V;
  cbn -[operand Nat.mul];
  repeat (apply bsum_ext; intros ? ?);
  unfold operand;
  repeat match goal with H : shape ?t = _ |- context [shape ?t] => rewrite H end;
  cbn -[Nat.mul Nat.eqb];
  rewrite ?bc_idx by assumption;
  reflexivity.

Section E.
  Context {K} `{CRing K}.
  Notation gt := (get (@n0 K _)).
''')
names = {}
for s in strings:
    raw = s
    c = s.replace(" ", "")
    ins, o = c.split("->")
    ins = ins.split(",")
    name = "es_" + "_".join(ins) + "_to_" + o
    if " " in raw: name += "_blank"
    labels = []
    for i in ins:
        for l in i:
            if l not in labels: labels.append(l)
    ts = ["T%d" % (k + 1) for k in range(len(ins))]
    hyps = ["shape %s = [%s]" % (t, "; ".join("n_" + l for l in i)) for t, i in zip(ts, ins)]
    prod = None
    for t, i in zip(ts, ins):
        g = "gt %s [%s]" % (t, "; ".join(i))
        prod = g if prod is None else "(%s * %s)%%K" % (prod, g)
    body = prod
    for l in reversed([l for l in labels if l not in o]):
        body = "bsum n_%s (fun %s => %s)" % (l, l, body)
    n = len(o)
    rhs = "tab%d %s (fun %s => %s)" % (n, " ".join("n_" + l for l in o), " ".join(o), body)
    out.append('''  Lemma %s (%s : tensor K) %s : %s ->
    einsum "%s" [%s] =
    Ok (%s).
  Proof. einsum_tac. Qed.
''' % (name, " ".join(ts), " ".join("n_" + l for l in labels), " -> ".join(hyps), raw, "; ".join(ts), rhs))
out.append("End E.\n")
open("/verif/rocq/theories/EinsumLemmas.v", "w").write("\n".join(out))
