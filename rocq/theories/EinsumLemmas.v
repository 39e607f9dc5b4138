(** What each einsum string used in /repo/nnj computes (generated by tools/gen_einsum.py).
    Sizes are n_<label>; the statement is the defining sum of products. *)
From Coq Require Import String Ascii List Arith ZArith Lia Bool.
From Verif Require Import Scalar Sums Tensor TensorLemmas.
Import ListNotations.
Local Open Scope nat_scope.
Local Open Scope list_scope.

Definition tab5 {A} n m p q r (f : nat -> nat -> nat -> nat -> nat -> A) : tensor A :=
  tab [n; m; p; q; r] (fun x => f (i_ 0 x) (i_ 1 x) (i_ 2 x) (i_ 3 x) (i_ 4 x)).

(** size-1 broadcasting does nothing on in-range indices *)
Lemma bc_idx n i : i < n -> (if Nat.eqb n 1 then 0 else i) = i.
Proof. intros. destruct (Nat.eqb_spec n 1); lia. Qed.

Lemma add_size_same e l n : lookup l e = Some n -> add_size (Ok e) (l, n) = Ok e.
Proof. intros E. unfold add_size, bind, fst, snd. rewrite E, Nat.eqb_refl. reflexivity. Qed.
Lemma add_size_new e l n : lookup l e = None -> add_size (Ok e) (l, n) = Ok (set_env l n e).
Proof. intros E. unfold add_size, bind, fst, snd. now rewrite E. Qed.

Ltac einsum_tac :=
  intros;
  unfold einsum;
  match goal with |- context [parse_einsum ?s] =>
    let v := eval vm_compute in (parse_einsum s) in change (parse_einsum s) with v end;
  cbv beta iota;
  unfold sizes, rank;
  repeat match goal with H : shape ?t = _ |- context [shape ?t] => rewrite H end;
  repeat match goal with |- context [Nat.eqb (List.length ?a) (List.length ?b)] =>
    change (Nat.eqb (List.length a) (List.length b)) with true; cbv iota end;
  cbn [combine fold_left];
  repeat match goal with |- context [own_sizes ?l] =>
    let H := fresh in assert (H : own_sizes l = true) by (cbn -[Nat.eqb]; rewrite ?Nat.eqb_refl; reflexivity); rewrite H; clear H; cbv iota end;
  repeat first [rewrite add_size_new by reflexivity | rewrite add_size_same by reflexivity];
  cbn -[tab operand Nat.mul];
  apply (f_equal Ok); apply tab_ext;
  let idx := fresh "idx" in let V := fresh "V" in intros idx V; didx idx V;
  cbn -[operand Nat.mul];
  repeat (apply bsum_ext; intros ? ?);
  unfold operand;
  repeat match goal with H : shape ?t = _ |- context [shape ?t] => rewrite H end;
  cbn -[Nat.mul Nat.eqb];
  rewrite ?bc_idx by assumption;
  reflexivity.

Section E.
  Context {K} `{CRing K}.
  Notation gt := (get (@n0 K _)).

  Lemma es_b_bi_to_bi (T1 T2 : tensor K) n_b n_i : shape T1 = [n_b] -> shape T2 = [n_b; n_i] ->
    einsum "b,bi->bi" [T1; T2] =
    Ok (tab2 n_b n_i (fun b i => (gt T1 [b] * gt T2 [b; i])%K)).
  Proof. einsum_tac. Qed.

  Lemma es_b_bij_to_bij (T1 T2 : tensor K) n_b n_i n_j : shape T1 = [n_b] -> shape T2 = [n_b; n_i; n_j] ->
    einsum "b,bij->bij" [T1; T2] =
    Ok (tab3 n_b n_i n_j (fun b i j => (gt T1 [b] * gt T2 [b; i; j])%K)).
  Proof. einsum_tac. Qed.

  Lemma es_bchw_to_bc (T1 : tensor K) n_b n_c n_h n_w : shape T1 = [n_b; n_c; n_h; n_w] ->
    einsum "bchw->bc" [T1] =
    Ok (tab2 n_b n_c (fun b c => bsum n_h (fun h => bsum n_w (fun w => gt T1 [b; c; h; w])))).
  Proof. einsum_tac. Qed.

  Lemma es_bi_bi_to_bi (T1 T2 : tensor K) n_b n_i : shape T1 = [n_b; n_i] -> shape T2 = [n_b; n_i] ->
    einsum "bi,bi->bi" [T1; T2] =
    Ok (tab2 n_b n_i (fun b i => (gt T1 [b; i] * gt T2 [b; i])%K)).
  Proof. einsum_tac. Qed.

  Lemma es_bi_bii_bi_to_bi (T1 T2 T3 : tensor K) n_b n_i : shape T1 = [n_b; n_i] -> shape T2 = [n_b; n_i; n_i] -> shape T3 = [n_b; n_i] ->
    einsum "bi,bii,bi->bi" [T1; T2; T3] =
    Ok (tab2 n_b n_i (fun b i => ((gt T1 [b; i] * gt T2 [b; i; i])%K * gt T3 [b; i])%K)).
  Proof. einsum_tac. Qed.

  Lemma es_bi_bij_to_bj (T1 T2 : tensor K) n_b n_i n_j : shape T1 = [n_b; n_i] -> shape T2 = [n_b; n_i; n_j] ->
    einsum "bi,bij->bj" [T1; T2] =
    Ok (tab2 n_b n_j (fun b j => bsum n_i (fun i => (gt T1 [b; i] * gt T2 [b; i; j])%K))).
  Proof. einsum_tac. Qed.

  Lemma es_bi_bik_bk_to_bik (T1 T2 T3 : tensor K) n_b n_i n_k : shape T1 = [n_b; n_i] -> shape T2 = [n_b; n_i; n_k] -> shape T3 = [n_b; n_k] ->
    einsum "bi,bik,bk->bik" [T1; T2; T3] =
    Ok (tab3 n_b n_i n_k (fun b i k => ((gt T1 [b; i] * gt T2 [b; i; k])%K * gt T3 [b; k])%K)).
  Proof. einsum_tac. Qed.

  Lemma es_bi_bj_to_bij (T1 T2 : tensor K) n_b n_i n_j : shape T1 = [n_b; n_i] -> shape T2 = [n_b; n_j] ->
    einsum "bi,bj->bij" [T1; T2] =
    Ok (tab3 n_b n_i n_j (fun b i j => (gt T1 [b; i] * gt T2 [b; j])%K)).
  Proof. einsum_tac. Qed.

  Lemma es_bi_bji_to_bj (T1 T2 : tensor K) n_b n_i n_j : shape T1 = [n_b; n_i] -> shape T2 = [n_b; n_j; n_i] ->
    einsum "bi,bji->bj" [T1; T2] =
    Ok (tab2 n_b n_j (fun b j => bsum n_i (fun i => (gt T1 [b; i] * gt T2 [b; j; i])%K))).
  Proof. einsum_tac. Qed.

  Lemma es_bi_bjk_to_bjik (T1 T2 : tensor K) n_b n_i n_j n_k : shape T1 = [n_b; n_i] -> shape T2 = [n_b; n_j; n_k] ->
    einsum "bi,bjk->bjik" [T1; T2] =
    Ok (tab4 n_b n_j n_i n_k (fun b j i k => (gt T1 [b; i] * gt T2 [b; j; k])%K)).
  Proof. einsum_tac. Qed.

  Lemma es_bii_to_bi_blank (T1 : tensor K) n_b n_i : shape T1 = [n_b; n_i; n_i] ->
    einsum "bii -> bi" [T1] =
    Ok (tab2 n_b n_i (fun b i => gt T1 [b; i; i])).
  Proof. einsum_tac. Qed.

  Lemma es_bii_to_bi (T1 : tensor K) n_b n_i : shape T1 = [n_b; n_i; n_i] ->
    einsum "bii->bi" [T1] =
    Ok (tab2 n_b n_i (fun b i => gt T1 [b; i; i])).
  Proof. einsum_tac. Qed.

  Lemma es_bij_bj_bij_to_bi (T1 T2 T3 : tensor K) n_b n_i n_j : shape T1 = [n_b; n_i; n_j] -> shape T2 = [n_b; n_j] -> shape T3 = [n_b; n_i; n_j] ->
    einsum "bij,bj,bij->bi" [T1; T2; T3] =
    Ok (tab2 n_b n_i (fun b i => bsum n_j (fun j => ((gt T1 [b; i; j] * gt T2 [b; j])%K * gt T3 [b; i; j])%K))).
  Proof. einsum_tac. Qed.

  Lemma es_bij_bj_bji_to_bi (T1 T2 T3 : tensor K) n_b n_i n_j : shape T1 = [n_b; n_i; n_j] -> shape T2 = [n_b; n_j] -> shape T3 = [n_b; n_j; n_i] ->
    einsum "bij,bj,bji->bi" [T1; T2; T3] =
    Ok (tab2 n_b n_i (fun b i => bsum n_j (fun j => ((gt T1 [b; i; j] * gt T2 [b; j])%K * gt T3 [b; j; i])%K))).
  Proof. einsum_tac. Qed.

  Lemma es_bij_bj_bjl_to_bil (T1 T2 T3 : tensor K) n_b n_i n_j n_l : shape T1 = [n_b; n_i; n_j] -> shape T2 = [n_b; n_j] -> shape T3 = [n_b; n_j; n_l] ->
    einsum "bij,bj,bjl->bil" [T1; T2; T3] =
    Ok (tab3 n_b n_i n_l (fun b i l => bsum n_j (fun j => ((gt T1 [b; i; j] * gt T2 [b; j])%K * gt T3 [b; j; l])%K))).
  Proof. einsum_tac. Qed.

  Lemma es_bij_bj_blj_to_bil (T1 T2 T3 : tensor K) n_b n_i n_j n_l : shape T1 = [n_b; n_i; n_j] -> shape T2 = [n_b; n_j] -> shape T3 = [n_b; n_l; n_j] ->
    einsum "bij,bj,blj->bil" [T1; T2; T3] =
    Ok (tab3 n_b n_i n_l (fun b i l => bsum n_j (fun j => ((gt T1 [b; i; j] * gt T2 [b; j])%K * gt T3 [b; l; j])%K))).
  Proof. einsum_tac. Qed.

  Lemma es_bij_bj_to_bi (T1 T2 : tensor K) n_b n_i n_j : shape T1 = [n_b; n_i; n_j] -> shape T2 = [n_b; n_j] ->
    einsum "bij,bj->bi" [T1; T2] =
    Ok (tab2 n_b n_i (fun b i => bsum n_j (fun j => (gt T1 [b; i; j] * gt T2 [b; j])%K))).
  Proof. einsum_tac. Qed.

  Lemma es_bij_bj_to_bij (T1 T2 : tensor K) n_b n_i n_j : shape T1 = [n_b; n_i; n_j] -> shape T2 = [n_b; n_j] ->
    einsum "bij,bj->bij" [T1; T2] =
    Ok (tab3 n_b n_i n_j (fun b i j => (gt T1 [b; i; j] * gt T2 [b; j])%K)).
  Proof. einsum_tac. Qed.

  Lemma es_bij_bjk_bik_to_bi (T1 T2 T3 : tensor K) n_b n_i n_j n_k : shape T1 = [n_b; n_i; n_j] -> shape T2 = [n_b; n_j; n_k] -> shape T3 = [n_b; n_i; n_k] ->
    einsum "bij,bjk,bik->bi" [T1; T2; T3] =
    Ok (tab2 n_b n_i (fun b i => bsum n_j (fun j => bsum n_k (fun k => ((gt T1 [b; i; j] * gt T2 [b; j; k])%K * gt T3 [b; i; k])%K)))).
  Proof. einsum_tac. Qed.

  Lemma es_bij_bjk_bki_to_bi (T1 T2 T3 : tensor K) n_b n_i n_j n_k : shape T1 = [n_b; n_i; n_j] -> shape T2 = [n_b; n_j; n_k] -> shape T3 = [n_b; n_k; n_i] ->
    einsum "bij,bjk,bki->bi" [T1; T2; T3] =
    Ok (tab2 n_b n_i (fun b i => bsum n_j (fun j => bsum n_k (fun k => ((gt T1 [b; i; j] * gt T2 [b; j; k])%K * gt T3 [b; k; i])%K)))).
  Proof. einsum_tac. Qed.

  Lemma es_bij_bjk_blk_to_bil (T1 T2 T3 : tensor K) n_b n_i n_j n_k n_l : shape T1 = [n_b; n_i; n_j] -> shape T2 = [n_b; n_j; n_k] -> shape T3 = [n_b; n_l; n_k] ->
    einsum "bij,bjk,blk->bil" [T1; T2; T3] =
    Ok (tab3 n_b n_i n_l (fun b i l => bsum n_j (fun j => bsum n_k (fun k => ((gt T1 [b; i; j] * gt T2 [b; j; k])%K * gt T3 [b; l; k])%K)))).
  Proof. einsum_tac. Qed.

  Lemma es_bij_bjk_to_bik (T1 T2 : tensor K) n_b n_i n_j n_k : shape T1 = [n_b; n_i; n_j] -> shape T2 = [n_b; n_j; n_k] ->
    einsum "bij,bjk->bik" [T1; T2] =
    Ok (tab3 n_b n_i n_k (fun b i k => bsum n_j (fun j => (gt T1 [b; i; j] * gt T2 [b; j; k])%K))).
  Proof. einsum_tac. Qed.

  Lemma es_bij_bkq_to_bkiqj (T1 T2 : tensor K) n_b n_i n_j n_k n_q : shape T1 = [n_b; n_i; n_j] -> shape T2 = [n_b; n_k; n_q] ->
    einsum "bij,bkq->bkiqj" [T1; T2] =
    Ok (tab5 n_b n_k n_i n_q n_j (fun b k i q j => (gt T1 [b; i; j] * gt T2 [b; k; q])%K)).
  Proof. einsum_tac. Qed.

  Lemma es_bij_jk_to_bik (T1 T2 : tensor K) n_b n_i n_j n_k : shape T1 = [n_b; n_i; n_j] -> shape T2 = [n_j; n_k] ->
    einsum "bij,jk->bik" [T1; T2] =
    Ok (tab3 n_b n_i n_k (fun b i k => bsum n_j (fun j => (gt T1 [b; i; j] * gt T2 [j; k])%K))).
  Proof. einsum_tac. Qed.

  Lemma es_bj_bi_to_bij (T1 T2 : tensor K) n_b n_j n_i : shape T1 = [n_b; n_j] -> shape T2 = [n_b; n_i] ->
    einsum "bj,bi->bij" [T1; T2] =
    Ok (tab3 n_b n_i n_j (fun b i j => (gt T1 [b; j] * gt T2 [b; i])%K)).
  Proof. einsum_tac. Qed.

  Lemma es_bj_bii_to_bij (T1 T2 : tensor K) n_b n_j n_i : shape T1 = [n_b; n_j] -> shape T2 = [n_b; n_i; n_i] ->
    einsum "bj,bii->bij" [T1; T2] =
    Ok (tab3 n_b n_i n_j (fun b i j => (gt T1 [b; j] * gt T2 [b; i; i])%K)).
  Proof. einsum_tac. Qed.

  Lemma es_bj_bj_to_bj (T1 T2 : tensor K) n_b n_j : shape T1 = [n_b; n_j] -> shape T2 = [n_b; n_j] ->
    einsum "bj,bj->bj" [T1; T2] =
    Ok (tab2 n_b n_j (fun b j => (gt T1 [b; j] * gt T2 [b; j])%K)).
  Proof. einsum_tac. Qed.

  Lemma es_bj_jk_to_bk (T1 T2 : tensor K) n_b n_j n_k : shape T1 = [n_b; n_j] -> shape T2 = [n_j; n_k] ->
    einsum "bj,jk->bk" [T1; T2] =
    Ok (tab2 n_b n_k (fun b k => bsum n_j (fun j => (gt T1 [b; j] * gt T2 [j; k])%K))).
  Proof. einsum_tac. Qed.

  Lemma es_bji_bjk_bkl_to_bil (T1 T2 T3 : tensor K) n_b n_j n_i n_k n_l : shape T1 = [n_b; n_j; n_i] -> shape T2 = [n_b; n_j; n_k] -> shape T3 = [n_b; n_k; n_l] ->
    einsum "bji,bjk,bkl->bil" [T1; T2; T3] =
    Ok (tab3 n_b n_i n_l (fun b i l => bsum n_j (fun j => bsum n_k (fun k => ((gt T1 [b; j; i] * gt T2 [b; j; k])%K * gt T3 [b; k; l])%K)))).
  Proof. einsum_tac. Qed.

  Lemma es_bk_ij_to_bijk (T1 T2 : tensor K) n_b n_k n_i n_j : shape T1 = [n_b; n_k] -> shape T2 = [n_i; n_j] ->
    einsum "bk,ij->bijk" [T1; T2] =
    Ok (tab4 n_b n_i n_j n_k (fun b i j k => (gt T1 [b; k] * gt T2 [i; j])%K)).
  Proof. einsum_tac. Qed.

  Lemma es_bkj_bj_to_bk (T1 T2 : tensor K) n_b n_k n_j : shape T1 = [n_b; n_k; n_j] -> shape T2 = [n_b; n_j] ->
    einsum "bkj,bj->bk" [T1; T2] =
    Ok (tab2 n_b n_k (fun b k => bsum n_j (fun j => (gt T1 [b; k; j] * gt T2 [b; j])%K))).
  Proof. einsum_tac. Qed.

  Lemma es_bkji_bj_to_bki (T1 T2 : tensor K) n_b n_k n_j n_i : shape T1 = [n_b; n_k; n_j; n_i] -> shape T2 = [n_b; n_j] ->
    einsum "bkji,bj->bki" [T1; T2] =
    Ok (tab3 n_b n_k n_i (fun b k i => bsum n_j (fun j => (gt T1 [b; k; j; i] * gt T2 [b; j])%K))).
  Proof. einsum_tac. Qed.

  Lemma es_bri_bj_to_brij (T1 T2 : tensor K) n_b n_r n_i n_j : shape T1 = [n_b; n_r; n_i] -> shape T2 = [n_b; n_j] ->
    einsum "bri,bj->brij" [T1; T2] =
    Ok (tab4 n_b n_r n_i n_j (fun b r i j => (gt T1 [b; r; i] * gt T2 [b; j])%K)).
  Proof. einsum_tac. Qed.

  Lemma es_bvchw_to_bvc (T1 : tensor K) n_b n_v n_c n_h n_w : shape T1 = [n_b; n_v; n_c; n_h; n_w] ->
    einsum "bvchw->bvc" [T1] =
    Ok (tab3 n_b n_v n_c (fun b v c => bsum n_h (fun h => bsum n_w (fun w => gt T1 [b; v; c; h; w])))).
  Proof. einsum_tac. Qed.

  Lemma es_chwv_to_cv (T1 : tensor K) n_c n_h n_w n_v : shape T1 = [n_c; n_h; n_w; n_v] ->
    einsum "chwv->cv" [T1] =
    Ok (tab2 n_c n_v (fun c v => bsum n_h (fun h => bsum n_w (fun w => gt T1 [c; h; w; v])))).
  Proof. einsum_tac. Qed.

  Lemma es_kj_bj_to_bk (T1 T2 : tensor K) n_k n_j n_b : shape T1 = [n_k; n_j] -> shape T2 = [n_b; n_j] ->
    einsum "kj,bj->bk" [T1; T2] =
    Ok (tab2 n_b n_k (fun b k => bsum n_j (fun j => (gt T1 [k; j] * gt T2 [b; j])%K))).
  Proof. einsum_tac. Qed.

  Lemma es_kj_bji_to_bki (T1 T2 : tensor K) n_k n_j n_b n_i : shape T1 = [n_k; n_j] -> shape T2 = [n_b; n_j; n_i] ->
    einsum "kj,bji->bki" [T1; T2] =
    Ok (tab3 n_b n_k n_i (fun b k i => bsum n_j (fun j => (gt T1 [k; j] * gt T2 [b; j; i])%K))).
  Proof. einsum_tac. Qed.

  Lemma es_mn_bn_kn_to_bmk (T1 T2 T3 : tensor K) n_m n_n n_b n_k : shape T1 = [n_m; n_n] -> shape T2 = [n_b; n_n] -> shape T3 = [n_k; n_n] ->
    einsum "mn,bn,kn->bmk" [T1; T2; T3] =
    Ok (tab3 n_b n_m n_k (fun b m k => bsum n_n (fun n => ((gt T1 [m; n] * gt T2 [b; n])%K * gt T3 [k; n])%K))).
  Proof. einsum_tac. Qed.

  Lemma es_mn_bn_mn_to_bm (T1 T2 T3 : tensor K) n_m n_n n_b : shape T1 = [n_m; n_n] -> shape T2 = [n_b; n_n] -> shape T3 = [n_m; n_n] ->
    einsum "mn,bn,mn->bm" [T1; T2; T3] =
    Ok (tab2 n_b n_m (fun b m => bsum n_n (fun n => ((gt T1 [m; n] * gt T2 [b; n])%K * gt T3 [m; n])%K))).
  Proof. einsum_tac. Qed.

  Lemma es_mn_bnj_kj_to_bmk (T1 T2 T3 : tensor K) n_m n_n n_b n_j n_k : shape T1 = [n_m; n_n] -> shape T2 = [n_b; n_n; n_j] -> shape T3 = [n_k; n_j] ->
    einsum "mn,bnj,kj->bmk" [T1; T2; T3] =
    Ok (tab3 n_b n_m n_k (fun b m k => bsum n_n (fun n => bsum n_j (fun j => ((gt T1 [m; n] * gt T2 [b; n; j])%K * gt T3 [k; j])%K)))).
  Proof. einsum_tac. Qed.

  Lemma es_mn_bnj_mj_to_bm (T1 T2 T3 : tensor K) n_m n_n n_b n_j : shape T1 = [n_m; n_n] -> shape T2 = [n_b; n_n; n_j] -> shape T3 = [n_m; n_j] ->
    einsum "mn,bnj,mj->bm" [T1; T2; T3] =
    Ok (tab2 n_b n_m (fun b m => bsum n_n (fun n => bsum n_j (fun j => ((gt T1 [m; n] * gt T2 [b; n; j])%K * gt T3 [m; j])%K)))).
  Proof. einsum_tac. Qed.

  Lemma es_nm_bn_nk_to_bmk (T1 T2 T3 : tensor K) n_n n_m n_b n_k : shape T1 = [n_n; n_m] -> shape T2 = [n_b; n_n] -> shape T3 = [n_n; n_k] ->
    einsum "nm,bn,nk->bmk" [T1; T2; T3] =
    Ok (tab3 n_b n_m n_k (fun b m k => bsum n_n (fun n => ((gt T1 [n; m] * gt T2 [b; n])%K * gt T3 [n; k])%K))).
  Proof. einsum_tac. Qed.

  Lemma es_nm_bn_nm_to_bm (T1 T2 T3 : tensor K) n_n n_m n_b : shape T1 = [n_n; n_m] -> shape T2 = [n_b; n_n] -> shape T3 = [n_n; n_m] ->
    einsum "nm,bn,nm->bm" [T1; T2; T3] =
    Ok (tab2 n_b n_m (fun b m => bsum n_n (fun n => ((gt T1 [n; m] * gt T2 [b; n])%K * gt T3 [n; m])%K))).
  Proof. einsum_tac. Qed.

  Lemma es_nm_bnj_jk_to_bmk (T1 T2 T3 : tensor K) n_n n_m n_b n_j n_k : shape T1 = [n_n; n_m] -> shape T2 = [n_b; n_n; n_j] -> shape T3 = [n_j; n_k] ->
    einsum "nm,bnj,jk->bmk" [T1; T2; T3] =
    Ok (tab3 n_b n_m n_k (fun b m k => bsum n_n (fun n => bsum n_j (fun j => ((gt T1 [n; m] * gt T2 [b; n; j])%K * gt T3 [j; k])%K)))).
  Proof. einsum_tac. Qed.

  Lemma es_nm_bnj_jm_to_bm (T1 T2 T3 : tensor K) n_n n_m n_b n_j : shape T1 = [n_n; n_m] -> shape T2 = [n_b; n_n; n_j] -> shape T3 = [n_j; n_m] ->
    einsum "nm,bnj,jm->bm" [T1; T2; T3] =
    Ok (tab2 n_b n_m (fun b m => bsum n_n (fun n => bsum n_j (fun j => ((gt T1 [n; m] * gt T2 [b; n; j])%K * gt T3 [j; m])%K)))).
  Proof. einsum_tac. Qed.

End E.
