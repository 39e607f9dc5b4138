(** MaxPool2d.jmp with a given matrix: the product with jacobian if the matrix has as many columns as the
    input has entries, and an error otherwise. *)
From Coq Require Import String Ascii List Arith ZArith Lia Bool.
From Verif Require Import Scalar Sums Tensor TensorLemmas EinsumLemmas Conv Abstract Simple LinearLayer ConvLayer PoolLayer
  Module Spec OpLemmas ReshapeLemmas Jac LeafSpec LeafSimple LeafUpsample TreeBase TreeVjp TreeMjp TreePull LeafPool PoolExact.
Import ListNotations.
Local Open Scope nat_scope.
Local Open Scope list_scope.

Section PoolJmp.
  Context {K} `{CR : CRing K}.
  Add Ring Kring : (cring : ring_theory n0 n1 nadd nmul nsub nopp (@eq K)).
  Notation gt := (get (@n0 K _)).
  Notation T := (tensor K).

  Section P.
    Variables (b c h1 w1 h2 w2 : nat) (x y : T) (idx : tensor nat).
    Notation P := (h1 * w1).
    Notation n := (h2 * w2).
    Hypothesis (Hb : 0 < b) (Hc : 0 < c) (Hn : 0 < n) (HP : 0 < P).
    Hypothesis (Wx : wf x) (Sx : shape x = [b; c; h1; w1]) (Sy : shape y = [b; c; h2; w2]).
    Hypothesis (Wi : wf idx) (Si : shape idx = [b; c; h2; w2]).
    Let f (q ch s : nat) : nat := nth ((q * c + ch) * n + s) (data idx) 0.
    Hypothesis (Fb : forall q ch s, q < b -> ch < c -> s < n -> f q ch s < P).
    Let J : nat -> nat -> nat -> K := fun q i j => delta (i / n * P + f q (i / n) (i mod n)) j.
    Let D1 := c * h1 * w1.
    Let D2 := c * h2 * w2.

    Lemma pool_jmp_ok (M : T) : wf M -> shape M = [b; D1; D1] -> pool_jmp (Some idx) x y M = Ok (JM b D2 D1 D1 J M).
    Proof.
      assert (D1P : D1 = c * P) by (unfold D1; ring). assert (D2n : D2 = c * n) by (unfold D2; ring).
      intros WM SM. unfold pool_jmp, unpack4. rewrite Sx, Sy. cbn [bind]. unfold size. rewrite SM. cbn [nth_error bind].
      fold D1. rewrite !Nat.eqb_refl. cbn [check].
      assert (Q1 : numel [b * c; P; c; h1; w1] = numel (shape M)) by (rewrite SM; unfold D1; numels; ring).
      rewrite reshape_ok by exact Q1. cbn [bind idx_of].
      replace (numel (shape idx) =? b * c * n) with true.
      2:{ symmetry. apply Nat.eqb_eq. rewrite Si. numels. ring. }
      cbn [check].
      assert (Ni : length (data idx) = b * c * n) by (rewrite Wi, Si; numels; ring).
      replace (forallb _ (data idx)) with true.
      2:{ symmetry. apply forallb_forall. intros k Hk. apply Nat.ltb_lt. apply (In_nth _ _ 0) in Hk as (z & Hz & <-).
          rewrite Ni in Hz. destruct (divmod_lt z (b * c) n Hz) as (A & B & E). destruct (divmod_lt (z / n) b c A) as (A' & B' & E').
          rewrite E, E'. apply Fb; auto. }
      cbn [check]. set (g := tab4 _ _ _ _ _).
      assert (Q2 : numel ([b; c; h2; w2] ++ [c; h1; w1]) = numel (shape g)) by (cbn [app g shape tab4 tab]; numels; ring).
      rewrite reshape_ok by exact Q2. cbn [bind].
      assert (Q3 : numel [b; c * h2 * w2; D1] = numel ([b; c; h2; w2] ++ [c; h1; w1])) by (cbn [app]; unfold D1; numels; ring).
      rewrite reshape_ok by exact Q3. f_equal. cbn [data].
      apply (tab3_eq n0); [|reflexivity|].
      { apply (wf_mkT_reshape [b; c * h2 * w2; D1] g); [apply wf_tab|]. now rewrite Q3. }
      intros q i j Hq Hi Hj. change (mkT [b; c * h2 * w2; D1] (data g)) with (mkT [b; D2; D1] (data g)).
      rewrite D2n in Hi. destruct (divmod_lt i c n Hi) as (A & B & Ei). unfold J.
      set (ch := i / n) in *. set (s := i mod n) in *. rewrite Ei at 1.
      destruct (chw_ex c h1 w1 j Hj) as (cj & yj & xj & Hcj & Hyj & Hxj & Ej).
      rewrite (get_mkT n0 _ g _ [(q * c + ch) * n + s; cj; yj; xj]).
      2:{ cbn [shape g tab4 tab ravel]. rewrite Ej, D2n. unfold chw, D1. numels. ring. }
      assert (q * c + ch < b * c) by nia. assert ((q * c + ch) * n + s < b * c * n) by nia.
      unfold g. rewrite get_tab4 by auto. destruct (divmod_flat n (q * c + ch) s B) as [-> _]. fold (f q ch s).
      rewrite (get_mkT n0 _ M _ [q; ch * P + f q ch s; j]).
      2:{ rewrite SM. cbn [shape ravel]. rewrite Ej. unfold chw, D1. numels. ring. }
      specialize (Fb q ch s Hq A B). rewrite (bsum_delta_l D1 _ (fun k => gt M [q; k; j])); auto. rewrite D1P. nia.
    Qed.
    Lemma pool_jmp_bad k (M : T) : shape M = [b; D1; k] -> k <> D1 -> pool_jmp (Some idx) x y M = Raise RuntimeError.
    Proof.
      intros SM Hk. unfold pool_jmp, unpack4. rewrite Sx, Sy. cbn [bind]. unfold size. rewrite SM. cbn [nth_error bind].
      fold D1. rewrite !Nat.eqb_refl. cbn [check]. unfold reshape.
      match goal with |- context [if ?c then _ else _] => replace c with false; [reflexivity|] end. symmetry. apply Nat.eqb_neq. rewrite SM.
      assert (0 < D1) by (unfold D1; nia). replace (numel [b * c; P; c; h1; w1]) with (b * D1 * D1) by (unfold D1; numels; ring).
      replace (numel [b; D1; k]) with (b * D1 * k) by (numels; ring). intros E. apply Hk. apply Nat.mul_cancel_l in E; [auto|nia].
    Qed.
  End P.

  Lemma pool_jmp_any cfg s s' b (x : T) : pool_sized cfg s s' -> 0 < b -> wf x -> shape x = b :: s ->
    exists J : T, wf J /\ shape J = [b; numel s'; numel s] /\
    (forall h, snd (jacobian (MaxPool cfg) h x None Input) = Ok (Some J)) /\
    (forall h M, wf M -> shape M = [b; numel s; numel s] ->
       snd (jmp (MaxPool cfg) h x None (Some M) Input) = Ok (Some (JM b (numel s') (numel s) (numel s) (entry J) M))) /\
    (forall h M k, shape M = [b; numel s; k] -> k <> numel s ->
       snd (jmp (MaxPool cfg) h x None (Some M) Input) = Raise RuntimeError) /\
    (forall h M, snd (jmp (MaxPool cfg) h x None (Some M) Weight) = Ok None).
  Proof.
    intros Ty Hb Wx Sx. unfold pool_sized in Ty. destruct s as [|c [|h1 [|w1 [|? ?]]]]; try contradiction.
    destruct s' as [|c' [|h2 [|w2 [|? ?]]]]; try contradiction.
    destruct Ty as (-> & Hc & Hh & Hw & Hh2 & Hw2 & L1 & L2 & O1 & O2).
    assert (E1 : numel [c; h1; w1] = c * h1 * w1) by (numels; ring).
    assert (E2 : numel [c; h2; w2] = c * h2 * w2) by (numels; ring). rewrite !E1, !E2.
    destruct (pool_ok_fwd cfg c h1 w1 h2 w2 b x) as (y & i & E & Wy & Sy & Wi & Si & G); auto.
    destruct (pool_facts0 cfg c h1 w1 h2 w2 b x) with (y := y) (i := i) as (_ & _ & _ & _ & F1 & F3); auto.
    set (f := fun q ch s => nth ((q * c + ch) * (h2 * w2) + s) (data i) 0) in *.
    set (JF := fun q k j => @delta K _ (k / (h2 * w2) * (h1 * w1) + f q (k / (h2 * w2)) (k mod (h2 * w2))) j).
    assert (Hn : 0 < h2 * w2) by nia. assert (HP : 0 < h1 * w1) by nia.
    set (J := dense b (c * h2 * w2) (c * h1 * w1) JF).
    exists J. split; [apply wf_tab|]. split; [reflexivity|]. split; [|split; [|split]].
    - intros h. cbn [jacobian maxpool_jacobian ensure forward]. rewrite E. cbn [snd bind st_idx].
      unfold J. rewrite (pool_jac_ok b c h1 w1 h2 w2 x y i) by auto. reflexivity.
    - intros h M WM SM. cbn [jmp ensure forward]. rewrite E. cbn [snd bind st_idx].
      rewrite (pool_jmp_ok b c h1 w1 h2 w2 x y i) by auto. cbn [some bind]. do 2 f_equal. apply tab3_ext. intros q k j Hq Hk Hj.
      apply bsum_ext. intros l Hl. unfold entry, J, dense. now rewrite get_tab3.
    - intros h M k SM Nk. cbn [jmp ensure forward]. rewrite E. cbn [snd bind st_idx].
      now rewrite (pool_jmp_bad b c h1 w1 h2 w2 x y i) with (k := k) by auto.
    - reflexivity.
  Qed.
  (** a matrix with the wrong number of rows, or for another batch *)
  Lemma pool_jmp_rows cfg s s' b (x : T) : pool_sized cfg s s' -> 0 < b -> wf x -> shape x = b :: s ->
    forall h M b' r k, shape M = [b'; r; k] -> b' <> b \/ r <> numel s ->
    snd (jmp (MaxPool cfg) h x None (Some M) Input) = Raise AssertionError.
  Proof.
    intros Ty Hb Wx Sx h M b' r k SM. unfold pool_sized in Ty. destruct s as [|c [|h1 [|w1 [|? ?]]]]; try contradiction.
    destruct s' as [|c' [|h2 [|w2 [|? ?]]]]; try contradiction.
    destruct Ty as (-> & Hc & Hh & Hw & Hh2 & Hw2 & L1 & L2 & O1 & O2).
    assert (E1 : numel [c; h1; w1] = c * h1 * w1) by (numels; ring). rewrite E1. intros Bad.
    destruct (pool_ok_fwd cfg c h1 w1 h2 w2 b x) as (y & i & E & Wy & Sy & Wi & Si & G); auto.
    cbn [jmp ensure forward]. rewrite E. cbn [snd bind st_idx].
    unfold pool_jmp, unpack4. rewrite Sx, Sy. cbn [bind]. unfold size. rewrite SM. cbn [nth_error bind].
    destruct (Nat.eqb_spec b' b) as [->|Nb]; cbn [check]; [|reflexivity].
    destruct (Nat.eqb_spec r (c * h1 * w1)) as [->|Nr]; cbn [check]; [|reflexivity]. exfalso. destruct Bad; auto.
  Qed.
End PoolJmp.
