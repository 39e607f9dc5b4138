(** MaxPool2d satisfies the layer specifications when its windows do not overlap. *)
From Coq Require Import String Ascii List Arith ZArith Lia Bool.
From Verif Require Import Scalar Sums Tensor TensorLemmas EinsumLemmas Conv Abstract Simple LinearLayer ConvLayer PoolLayer
  Module Spec OpLemmas ReshapeLemmas Jac LeafSpec LeafSimple LeafUpsample TreeBase TreeVjp TreeMjp TreePull.
Import ListNotations.
Local Open Scope nat_scope.
Local Open Scope list_scope.

Lemma length_set_nth {A} k (a : A) l : length (set_nth k a l) = length l.
Proof. revert k; induction l as [|x l IH]; intros [|k]; cbn; auto. Qed.
Lemma nth_set_nth {A} (d : A) k a l z : k < length l ->
  nth z (set_nth k a l) d = if z =? k then a else nth z l d.
Proof.
  revert k z; induction l as [|x l IH]; intros [|k] [|z]; cbn; intros H; try lia; auto.
  apply IH. lia.
Qed.

Section Put.
  Context {K} `{CR : CRing K}.
  Add Ring Kring : (cring : ring_theory n0 n1 nadd nmul nsub nopp (@eq K)).
  Notation gt := (get (@n0 K _)).
  Notation T := (tensor K).

  (** indexed assignment into zeros with distinct positions is a sum *)
  Lemma put_fold n (p : nat -> nat) (v : nat -> K) (l0 : list K) :
    (forall z, nth z l0 n0 = n0) -> (forall k, k < n -> p k < length l0) ->
    (forall k k', k < n -> k' < n -> p k = p k' -> k = k') ->
    let l := fold_left (fun l k => set_nth (p k) (v k) l) (seq 0 n) l0 in
    length l = length l0 /\ forall z, nth z l n0 = bsum n (fun k => nmul (v k) (delta (p k) z)).
  Proof.
    intros Z B I. induction n as [|n IH].
    - cbn. split; auto.
    - rewrite seq_S, fold_left_app. cbn [fold_left Nat.add]. cbn zeta in IH.
      destruct IH as [IL IN]; auto.
      set (l := fold_left _ (seq 0 n) l0) in *. cbn zeta. rewrite length_set_nth. split; auto.
      intros z. cbn [bsum]. rewrite nth_set_nth by (rewrite IL; auto). destruct (Nat.eqb_spec z (p n)) as [->|N].
      + rewrite delta_refl, bsum_0; [ring|]. intros k Hk. rewrite delta_neq; [ring|].
        intros E. apply I in E; lia.
      + rewrite IN, (delta_neq (p n)) by auto. ring.
  Qed.
  Lemma nth_zeros s z : nth z (data (@zeros K _ s)) n0 = n0.
  Proof.
    unfold zeros, fill_with, tab. cbn [data]. revert z. generalize (seq 0 (numel s)). induction l as [|k l IH]; intros [|z]; cbn; auto.
  Qed.
  Lemma index_put_ok s idxs (v : T) :
    (forall i, In i idxs -> shape i = shape v) ->
    let n := numel (shape v) in
    let pos k := map (fun i => nth k (data i) 0) idxs in
    (forall k, k < n -> valid s (pos k)) ->
    (forall k k', k < n -> k' < n -> pos k = pos k' -> k = k') ->
    exists t, index_put (zeros s) idxs v = Ok t /\ shape t = s /\ wf t /\
      forall z, nth z (data t) n0 = bsum n (fun k => nmul (nth k (data v) n0) (delta (ravel s (pos k)) z)).
  Proof.
    intros Sh n pos V I. unfold index_put.
    replace (forallb (fun i => shape_eqb (shape i) (shape v)) idxs) with true.
    2:{ symmetry. apply forallb_forall. intros i Hi. apply shape_eqb_true. auto. }
    cbn [check]. replace (forallb _ (seq 0 (numel (shape v)))) with true.
    2:{ symmetry. apply forallb_forall. intros k Hk. apply in_seq in Hk. specialize (V k). fold (pos k).
        assert (V' : valid s (pos k)) by (apply V; fold n in Hk; lia). clear - V'. change (shape (zeros s)) with s. revert V'.
        generalize dependent (pos k). intros l. revert s.
        induction l as [|a l IH]; intros [|d s] V; auto; cbn [valid] in V; try tauto. destruct V as [L V]. apply Nat.ltb_lt in L.
        cbn [combine forallb fst snd]. rewrite L. cbn [andb]. auto. }
    cbn [check]. eexists. split; [reflexivity|]. split; [reflexivity|].
    fold n. change (shape (zeros s)) with s.
    destruct (put_fold n (fun k => ravel s (pos k)) (fun k => nth k (data v) n0) (data (zeros s))) as [L Nt].
    - apply nth_zeros.
    - intros k Hk. replace (length (data (zeros s))) with (numel s) by (symmetry; apply wf_tab). apply ravel_lt; auto.
    - intros k k' Hk Hk' E. apply I; auto. apply (ravel_inj s); auto.
    - split; [|exact Nt]. unfold wf. cbn [data shape]. transitivity (length (data (@zeros K _ s))); [exact L|apply wf_tab].
  Qed.

  Lemma delta_flat P r r' p p' : p < P -> p' < P -> @delta K _ (r * P + p) (r' * P + p') = nmul (delta r r') (delta p p').
  Proof.
    intros H H'. destruct (Nat.eq_dec r r') as [->|N].
    - rewrite delta_refl. destruct (Nat.eq_dec p p') as [->|N]; [rewrite !delta_refl; ring|].
      rewrite !delta_neq by lia. ring.
    - rewrite (delta_neq r), delta_neq by (auto; nia). ring.
  Qed.
End Put.

Section Pool.
  Context {K} `{CR : CRing K}.
  Add Ring Kring : (cring : ring_theory n0 n1 nadd nmul nsub nopp (@eq K)).
  Notation gt := (get (@n0 K _)).
  Notation T := (tensor K).

  Section P.
    Variables (b c h1 w1 h2 w2 : nat) (x y : T) (idx : tensor nat).
    Let P := h1 * w1.
    Let n := h2 * w2.
    Hypothesis (Hb : 0 < b) (Hc : 0 < c) (Hn : 0 < n) (HP : 0 < P).
    Hypothesis (Wx : wf x) (Sx : shape x = [b; c; h1; w1]) (Sy : shape y = [b; c; h2; w2]).
    Hypothesis (Wi : wf idx) (Si : shape idx = [b; c; h2; w2]).
    Let f (q ch s : nat) : nat := nth ((q * c + ch) * n + s) (data idx) 0.
    Hypothesis (Fb : forall q ch s, q < b -> ch < c -> s < n -> f q ch s < P).
    Hypothesis (Fi : forall q ch s s', q < b -> ch < c -> s < n -> s' < n -> f q ch s = f q ch s' -> s = s').
    Let J : nat -> nat -> nat -> K := fun q i j => delta (i / n * P + f q (i / n) (i mod n)) j.
    Let D1 := c * h1 * w1.
    Let D2 := c * h2 * w2.

    Lemma D1P : D1 = c * P. Proof. unfold D1, P. ring. Qed.
    Lemma D2n : D2 = c * n. Proof. unfold D2, n. ring. Qed.
    Lemma fk q ch s : nth ((q * c + ch) * n + s) (data idx) 0 = f q ch s.
    Proof. reflexivity. Qed.
    Lemma Jn q ch s j : s < n -> J q (ch * n + s) j = delta (ch * P + f q ch s) j.
    Proof. intros Hs. unfold J. destruct (divmod_flat n ch s Hs) as [-> ->]. reflexivity. Qed.

    Lemma nth_arange A B k : k < A * B -> nth k (data (arange_rep A B)) 0 = k / B.
    Proof.
      intros Hk. unfold arange_rep, tab2. rewrite flat_tab by (numels; lia). cbn [unravel nth]. now rewrite numel_cons, numel_nil, Nat.mul_1_r.
    Qed.
    (** the index tensors of vjp, and their positions *)
    Lemma pool_put_vec (v : T) : wf v -> shape v = [b * c; n] ->
      exists t, index_put (zeros [b * c; P]) [arange_rep (b * c) n; mkT [b * c; n] (data idx)] v = Ok t /\
        shape t = [b * c; P] /\ wf t /\
        forall q j, q < b -> j < D1 -> nth (q * D1 + j) (data t) n0 = bsum D2 (fun i => nmul (nth (q * D2 + i) (data v) n0) (J q i j)).
    Proof.
      intros Wv Sv.
      assert (Nv : numel (shape v) = b * c * n) by (rewrite Sv; numels; ring).
      assert (Ps : forall k, k < b * c * n -> map (fun i => nth k (data i) 0) [arange_rep (b * c) n; mkT [b * c; n] (data idx)] =
         [k / n; nth k (data idx) 0]).
      { intros k Hk. cbn [map data]. rewrite nth_arange by auto. reflexivity. }
      assert (KQ : forall k, k < b * c * n -> exists q ch s, q < b /\ ch < c /\ s < n /\ k = (q * c + ch) * n + s).
      { intros k Hk. destruct (divmod_lt k (b * c) n Hk) as (A & B & E). destruct (divmod_lt (k / n) b c A) as (A' & B' & E').
        exists (k / n / c), ((k / n) mod c), (k mod n). rewrite <- E'. auto. }
      destruct (index_put_ok [b * c; P] [arange_rep (b * c) n; mkT [b * c; n] (data idx)] v) as (t & E & S & W & Nt).
      - intros i [<-|[<-|[]]]; rewrite Sv; reflexivity.
      - intros k Hk. rewrite Nv in Hk. rewrite Ps by auto. destruct (KQ k Hk) as (q & ch & s & Hq & Hch & Hs & ->).
        rewrite fk. destruct (divmod_flat n (q * c + ch) s Hs) as [-> _]. cbn. repeat split; auto. nia.
      - intros k k' Hk Hk'. rewrite Nv in Hk, Hk'. rewrite !Ps by auto.
        destruct (KQ k Hk) as (q & ch & s & Hq & Hch & Hs & ->). destruct (KQ k' Hk') as (q' & ch' & s' & Hq' & Hch' & Hs' & ->).
        rewrite !fk. destruct (divmod_flat n (q * c + ch) s Hs) as [-> _]. destruct (divmod_flat n (q' * c + ch') s' Hs') as [-> _].
        intros E. injection E as E1 E2. assert (q = q') by nia. subst q'. assert (ch = ch') by nia. subst ch'.
        apply Fi in E2; auto.
      - exists t. split; [exact E|]. split; [exact S|]. split; [exact W|]. intros q j Hq Hj. rewrite Nt, Nv.
        replace (b * c * n) with (b * D2) by (rewrite D2n; ring). rewrite bsum_prod, (bsum_single b q); auto.
        + rewrite D2n. apply bsum_ext. intros i Hi. f_equal. destruct (divmod_lt i c n Hi) as (A & B & Ei).
          set (ch := i / n) in *. set (s := i mod n) in *. rewrite Ei, Jn by auto.
          replace (q * (c * n) + (ch * n + s)) with ((q * c + ch) * n + s) by ring.
          rewrite Ps by nia. destruct (divmod_flat n (q * c + ch) s B) as [-> _]. rewrite fk. cbn [ravel]. numels.
          replace ((q * c + ch) * (P * 1) + (f q ch s * 1 + 0)) with (q * (c * P) + (ch * P + f q ch s)) by ring.
          rewrite D1P. rewrite D1P in Hj. specialize (Fb q ch s Hq A B). rewrite delta_flat by (auto; nia). rewrite delta_refl. ring.
        + intros q' Hq' Ne. apply bsum_0. rewrite D2n. intros i Hi. destruct (divmod_lt i c n Hi) as (A & B & Ei).
          set (ch := i / n) in *. set (s := i mod n) in *. rewrite Ei.
          replace (q' * (c * n) + (ch * n + s)) with ((q' * c + ch) * n + s) by ring.
          rewrite Ps by nia. destruct (divmod_flat n (q' * c + ch) s B) as [-> _]. rewrite fk. cbn [ravel]. numels.
          replace ((q' * c + ch) * (P * 1) + (f q' ch s * 1 + 0)) with (q' * (c * P) + (ch * P + f q' ch s)) by ring.
          rewrite D1P. rewrite D1P in Hj. specialize (Fb q' ch s Hq' A B). rewrite delta_flat by (auto; nia). rewrite (delta_neq q') by auto. ring.
    Qed.

    Lemma pool_vjp_ok v : wf v -> shape v = [b; D2] -> pool_vjp (Some idx) x y v = Ok (vJ b D2 D1 J v).
    Proof.
      intros Wv Sv. unfold pool_vjp, unpack4. rewrite Sx, Sy. cbn [bind]. rewrite Nat.eqb_refl. cbn [check].
      fold D2. rewrite Sv, shape_eqb_refl. cbn [check]. fold n P.
      rewrite reshape_ok by (rewrite Sv, D2n; numels; ring). cbn [bind idx_of].
      rewrite reshape_ok by (rewrite Si; unfold n; numels; ring). cbn [bind].
      destruct (pool_put_vec (mkT [b * c; n] (data v))) as (t & E & S & W & Nt).
      { apply wf_mkT_reshape; auto. rewrite Sv, D2n; numels; ring. }
      { reflexivity. }
      rewrite E. cbn [bind]. rewrite reshape_ok by (rewrite S; unfold P; numels; ring). f_equal.
      apply (tab2_eq n0); [|reflexivity|].
      { apply wf_mkT_reshape; auto. rewrite S; unfold P; numels; ring. }
      intros q j Hq Hj. unfold get at 1. cbn [shape data ravel]. numels.
      replace (q * (c * h1 * w1 * 1) + (j * 1 + 0)) with (q * D1 + j) by (unfold D1; ring).
      rewrite Nt by auto. apply bsum_ext. intros i Hi. f_equal. unfold get. rewrite Sv. cbn [ravel data]. numels.
      f_equal. ring.
    Qed.

    Lemma pool_dd_ok M : wf M -> shape M = [b; D2] -> pool_jTmjp_dd (Some idx) x y M = Ok (pull b D2 D1 J true true M).
    Proof.
      intros Wv Sv. unfold pool_jTmjp_dd, unpack4. rewrite Sx, Sy. cbn [bind]. fold n P.
      rewrite reshape_ok by reflexivity. cbn [bind idx_of].
      rewrite reshape_ok by (rewrite Si; unfold n; numels; ring). cbn [bind].
      assert (Z : reshape [b * c; P] (@zeros K _ [b; c; h1; w1]) = Ok (zeros [b * c; P])).
      { apply reshape_tab with (phi := fun i => unravel [b; c; h1; w1] (ravel [b * c; P] i)).
        - unfold P; numels; ring.
        - intros i V. apply ravel_lt in V.
          assert (L : ravel [b * c; P] i < numel [b; c; h1; w1]).
          { replace (numel [b; c; h1; w1]) with (numel [b * c; P]); auto. unfold P; numels; ring. }
          split; [now apply unravel_valid|]. split; [now apply ravel_unravel|reflexivity]. }
      rewrite Z. cbn [bind].
      rewrite reshape_ok by (rewrite Sv, D2n; numels; ring). cbn [bind].
      destruct (pool_put_vec (mkT [b * c; n] (data M))) as (t & E & S & W & Nt).
      { apply wf_mkT_reshape; auto. rewrite Sv, D2n; numels; ring. }
      { reflexivity. }
      change (mkT [b * c; n] (data (arange_rep (b * c) n))) with (arange_rep (b * c) n).
      rewrite E. cbn [bind]. rewrite reshape_ok by (rewrite S; unfold P; numels; ring). f_equal.
      apply (tab2_eq n0); [|reflexivity|].
      { apply wf_mkT_reshape; auto. rewrite S; unfold P; numels; ring. }
      intros q j Hq Hj. unfold get at 1. cbn [shape data ravel]. numels.
      replace (q * (c * h1 * w1 * 1) + (j * 1 + 0)) with (q * D1 + j) by (unfold D1; ring).
      rewrite Nt by auto. rewrite pull_at_diag. apply bsum_ext. intros i Hi. unfold get. rewrite Sv. cbn [ravel data]. numels.
      replace (q * (D2 * 1) + (i * 1 + 0)) with (q * D2 + i) by ring.
      unfold J, delta. destruct Nat.eqb; ring.
    Qed.

    Lemma pool_mjp_ok r M : wf M -> shape M = [b; r; D2] -> pool_mjp (Some idx) x y M = Ok (MJ b r D2 D1 J M).
    Proof.
      intros Wv Sv. unfold pool_mjp, unpack4. rewrite Sx, Sy. cbn [bind]. rewrite Nat.eqb_refl. cbn [check].
      unfold size. rewrite Sv. cbn [nth_error bind]. fold D2. rewrite !Nat.eqb_refl. cbn [andb check]. fold n P.
      rewrite reshape_ok by (rewrite Sv, D2n; numels; ring). cbn [bind idx_of].
      rewrite reshape_ok by (rewrite Si; unfold n; numels; ring). cbn [bind].
      set (e := expand_dim 0 1 r _).
      assert (Se : e = tab4 b r c n (fun q a ch s => f q ch s)).
      { unfold e, expand_dim. cbn [shape unsqueeze firstn skipn app set_nth]. apply tab_ext. intros id V. didx id V. cbn [nth].
        unfold get, f. cbn [set_nth shape unsqueeze firstn skipn app data ravel]. numels. f_equal. ring. }
      rewrite Se. rewrite reshape_ok by (cbn [shape tab4 tab]; numels; ring). cbn [bind].
      set (ix := mkT [b * r * c; n] _). set (mm := mkT [b * r * c; n] (data M)).
      assert (Nv : numel (shape mm) = b * r * c * n) by (unfold mm; cbn [shape]; numels; ring).
      assert (KQ : forall k, k < b * r * c * n -> exists q a ch s, q < b /\ a < r /\ ch < c /\ s < n /\ k = ((q * r + a) * c + ch) * n + s).
      { intros k Hk. destruct (divmod_lt k (b * r * c) n Hk) as (A & B & E). destruct (divmod_lt (k / n) (b * r) c A) as (A' & B' & E').
        destruct (divmod_lt (k / n / c) b r A') as (A2 & B2 & E2).
        exists (k / n / c / r), ((k / n / c) mod r), ((k / n) mod c), (k mod n). rewrite <- E2, <- E'. auto. }
      assert (Ix : forall q a ch s, q < b -> a < r -> ch < c -> s < n -> nth (((q * r + a) * c + ch) * n + s) (data ix) 0 = f q ch s).
      { intros q a ch s Hq Ha Hch Hs. unfold ix. cbn [data].
        assert (E : ((q * r + a) * c + ch) * n + s = ravel [b; r; c; n] [q; a; ch; s]) by (cbn [ravel]; numels; ring).
        rewrite E. pose proof (get_tab4 0 b r c n (fun q a ch s => f q ch s) q a ch s Hq Ha Hch Hs) as G. exact G. }
      assert (Ps : forall q a ch s, q < b -> a < r -> ch < c -> s < n ->
         map (fun i => nth (((q * r + a) * c + ch) * n + s) (data i) 0) [arange_rep (b * r * c) n; ix] =
         [(q * r + a) * c + ch; f q ch s]).
      { intros q a ch s Hq Ha Hch Hs. assert ((q * r + a) < b * r) by nia. assert ((q * r + a) * c + ch < b * r * c) by nia.
        assert (((q * r + a) * c + ch) * n + s < b * r * c * n) by nia.
        cbn [map]. rewrite nth_arange, Ix by auto. now destruct (divmod_flat n ((q * r + a) * c + ch) s Hs) as [-> _]. }
      destruct (index_put_ok [b * r * c; P] [arange_rep (b * r * c) n; ix] mm) as (t & E & S & W & Nt).
      - intros i [<-|[<-|[]]]; reflexivity.
      - intros k Hk. rewrite Nv in Hk. destruct (KQ k Hk) as (q & a & ch & s & Hq & Ha & Hch & Hs & ->). rewrite Ps by auto.
        cbn. assert ((q * r + a) < b * r) by nia. repeat split; auto. nia.
      - intros k k' Hk Hk'. rewrite Nv in Hk, Hk'.
        destruct (KQ k Hk) as (q & a & ch & s & Hq & Ha & Hch & Hs & ->).
        destruct (KQ k' Hk') as (q' & a' & ch' & s' & Hq' & Ha' & Hch' & Hs' & ->).
        rewrite !Ps by auto. intros E. injection E as E1 E2.
        assert (E3 : q * r + a = q' * r + a') by nia. assert (ch = ch') by nia. subst ch'.
        assert (q = q') by nia. subst q'. assert (s = s') by (apply (Fi q ch); auto). subst s'. now rewrite E3.
      - rewrite E. cbn [bind].
        assert (RS : numel [b; r; c * h1 * w1] = numel (shape t)) by (rewrite S; unfold P; numels; ring).
        rewrite reshape_ok by exact RS. f_equal.
        apply (tab3_eq n0); [now apply wf_mkT_reshape|reflexivity|].
        intros q a j Hq Ha Hj. unfold get at 1. cbn [shape data ravel]. numels.
        replace (q * (r * (c * h1 * w1 * 1)) + (a * (c * h1 * w1 * 1) + (j * 1 + 0))) with ((q * r + a) * D1 + j) by (unfold D1; ring).
        rewrite Nt, Nv. assert (Hqa : q * r + a < b * r) by nia.
        replace (b * r * c * n) with (b * r * D2) by (rewrite D2n; ring). rewrite bsum_prod, (bsum_single (b * r) (q * r + a)); auto.
        + rewrite D2n. apply bsum_ext. intros i Hi. f_equal.
          { unfold get. rewrite Sv. cbn [mm data ravel]. numels. f_equal. rewrite D2n. ring. }
          destruct (divmod_lt i c n Hi) as (A & B & Ei).
          set (ch := i / n) in *. set (s := i mod n) in *. rewrite Ei, Jn by auto.
          replace ((q * r + a) * (c * n) + (ch * n + s)) with (((q * r + a) * c + ch) * n + s) by ring.
          rewrite Ps by auto. cbn [ravel]. numels.
          replace (((q * r + a) * c + ch) * (P * 1) + (f q ch s * 1 + 0)) with ((q * r + a) * (c * P) + (ch * P + f q ch s)) by ring.
          rewrite D1P. fold D1 in Hj. rewrite D1P in Hj. specialize (Fb q ch s Hq A B). rewrite delta_flat by (auto; nia). rewrite delta_refl. ring.
        + intros qa Hqa' Ne. apply bsum_0. rewrite D2n. intros i Hi. destruct (divmod_lt i c n Hi) as (A & B & Ei).
          set (ch := i / n) in *. set (s := i mod n) in *. rewrite Ei.
          destruct (divmod_lt qa b r Hqa') as (Q1 & Q2 & EQ). set (q' := qa / r) in *. set (a' := qa mod r) in *. clearbody q' a'. subst qa.
          replace ((q' * r + a') * (c * n) + (ch * n + s)) with (((q' * r + a') * c + ch) * n + s) by ring.
          rewrite Ps by auto. cbn [ravel]. numels.
          replace (((q' * r + a') * c + ch) * (P * 1) + (f q' ch s * 1 + 0)) with ((q' * r + a') * (c * P) + (ch * P + f q' ch s)) by ring.
          rewrite D1P. fold D1 in Hj. rewrite D1P in Hj. specialize (Fb q' ch s Q1 A B). rewrite delta_flat by (auto; nia).
          rewrite (delta_neq (q' * r + a')) by auto. ring.
    Qed.

    Lemma pool_jac_ok : pool_jacobian (Some idx) x y = Ok (dense b D2 D1 J).
    Proof.
      unfold pool_jacobian, unpack4. rewrite Sx, Sy. cbn [bind]. rewrite Nat.eqb_refl. cbn [check]. rewrite ones_embed.
      cbn [bind]. unfold pool_jmp, unpack4. rewrite Sx, Sy. cbn [bind]. unfold size. cbn [dense shape tab3 tab nth_error bind].
      rewrite !Nat.eqb_refl. cbn [check]. fold n P. fold D1. fold (@dense K b D1 D1 (fun _ i j => delta i j)).
      set (eye := dense b D1 D1 _).
      assert (Q1 : numel [b * c; P; c; h1; w1] = numel (shape eye)) by (cbn [eye shape dense tab3 tab]; unfold D1, P; numels; ring).
      rewrite reshape_ok by exact Q1. cbn [bind idx_of].
      replace (numel (shape idx) =? b * c * n) with true.
      2:{ symmetry. apply Nat.eqb_eq. rewrite Si. unfold n. numels. ring. }
      cbn [check].
      assert (Ni : length (data idx) = b * c * n) by (rewrite Wi, Si; unfold n; numels; ring).
      replace (forallb _ (data idx)) with true.
      2:{ symmetry. apply forallb_forall. intros k Hk. apply Nat.ltb_lt. apply (In_nth _ _ 0) in Hk as (z & Hz & <-).
          rewrite Ni in Hz. destruct (divmod_lt z (b * c) n Hz) as (A & B & E). destruct (divmod_lt (z / n) b c A) as (A' & B' & E').
          rewrite E, E'. apply Fb; auto. }
      cbn [check]. set (g := tab4 _ _ _ _ _).
      assert (Q2 : numel ([b; c; h2; w2] ++ [c; h1; w1]) = numel (shape g)) by (cbn [app g shape tab4 tab]; unfold n; numels; ring).
      rewrite reshape_ok by exact Q2. cbn [bind].
      assert (Q3 : numel [b; c * h2 * w2; D1] = numel ([b; c; h2; w2] ++ [c; h1; w1])) by (cbn [app]; unfold D1; numels; ring).
      rewrite reshape_ok by exact Q3. f_equal. cbn [data].
      apply (tab3_eq n0); [|reflexivity|].
      { apply (wf_mkT_reshape [b; c * h2 * w2; D1] g); [apply wf_tab|]. now rewrite Q3. }
      intros q i j Hq Hi Hj. change (mkT [b; c * h2 * w2; D1] (data g)) with (mkT [b; D2; D1] (data g)).
      rewrite D2n in Hi. destruct (divmod_lt i c n Hi) as (A & B & Ei). unfold J.
      set (ch := i / n) in *. set (s := i mod n) in *. rewrite Ei.
      destruct (chw_ex c h1 w1 j Hj) as (cj & yj & xj & Hcj & Hyj & Hxj & Ej).
      rewrite (get_mkT n0 _ g _ [(q * c + ch) * n + s; cj; yj; xj]).
      2:{ cbn [shape g tab4 tab ravel]. rewrite Ej, D2n. unfold chw, D1. numels. ring. }
      assert (q * c + ch < b * c) by nia. assert ((q * c + ch) * n + s < b * c * n) by nia.
      unfold g. rewrite get_tab4 by auto. destruct (divmod_flat n (q * c + ch) s B) as [-> _]. rewrite fk.
      rewrite (get_mkT n0 _ eye _ [q; ch * P + f q ch s; j]).
      2:{ cbn [shape eye dense tab3 tab ravel]. rewrite Ej. unfold chw, D1, P. numels. ring. }
      unfold eye, dense. specialize (Fb q ch s Hq A B). rewrite get_tab3; auto. rewrite D1P. nia.
    Qed.

    Lemma pool_full_ok M : wf M -> shape M = [b; D2; D2] -> pool_jTmjp_full (Some idx) x y M = Ok (pull b D2 D1 J false false M).
    Proof.
      intros Wv Sv. unfold pool_jTmjp_full, unpack4. rewrite Sx, Sy. cbn [bind]. fold n P.
      rewrite reshape_ok by (rewrite Sv, D2n; numels; ring). cbn [bind].
      set (t1 := mkT [b; c; n; c; n] (data M)).
      assert (E5 : forall A (d : A) (t : tensor A) n1 n2 n3 n4 n5, shape t = [n1; n2; n3; n4; n5] ->
         movedim d [-2]%Z [-3]%Z t = tab [n1; n2; n4; n3; n5] (fun i => get d t [i_ 0 i; i_ 1 i; i_ 3 i; i_ 2 i; i_ 4 i])).
      { intros A d t m1 m2 m3 m4 m5 S. unfold movedim, permute, rank. rewrite S. reflexivity. }
      rewrite (E5 _ n0 t1 b c n c n) by reflexivity.
      set (t2 := tab [b; c; c; n; n] _).
      rewrite reshape_ok by (cbn [t2 shape tab]; numels; ring). cbn [bind idx_of].
      rewrite reshape_ok by (rewrite Si; unfold n; numels; ring). cbn [bind].
      set (e := expand_dim 0 2 n _).
      assert (Se : e = tab4 b c n n (fun q ch s s' => f q ch s')).
      { unfold e, expand_dim. cbn [shape unsqueeze firstn skipn app set_nth]. apply tab_ext. intros id V. didx id V. cbn [nth].
        unfold get, f. cbn [set_nth shape unsqueeze firstn skipn app data ravel]. numels. f_equal. ring. }
      assert (Ecol : expand_dim 0 1 c (unsqueeze 1 e) = tab [b; c; c; n; n] (fun i => f (i_ 0 i) (i_ 2 i) (i_ 4 i))).
      { rewrite Se. unfold expand_dim. cbn [shape unsqueeze firstn skipn app set_nth tab4 tab]. apply tab_ext. intros id V. didx id V. cbn [nth].
        cbn [set_nth]. set (tt := tab4 b c n n _).
        change (unsqueeze 1 _) with (mkT [b; 1; c; n; n] (data tt)).
        match goal with |- get 0 _ [?q; 0; ?ch; ?s; ?s'] = _ => rewrite (get_mkT 0 _ tt _ [q; ch; s; s']) by (cbn [shape tt tab4 tab ravel]; numels; ring) end.
        unfold tt. now rewrite get_tab4. }
      assert (Erow : expand_dim 0 2 c (unsqueeze 2 e) = tab [b; c; c; n; n] (fun i => f (i_ 0 i) (i_ 1 i) (i_ 4 i))).
      { rewrite Se. unfold expand_dim. cbn [shape unsqueeze firstn skipn app set_nth tab4 tab]. apply tab_ext. intros id V. didx id V. cbn [nth].
        cbn [set_nth]. set (tt := tab4 b c n n _).
        change (unsqueeze 2 _) with (mkT [b; c; 1; n; n] (data tt)).
        match goal with |- get 0 _ [?q; ?ch; 0; ?s; ?s'] = _ => rewrite (get_mkT 0 _ tt _ [q; ch; s; s']) by (cbn [shape tt tab4 tab ravel]; numels; ring) end.
        unfold tt. now rewrite get_tab4. }
      rewrite Ecol, Erow.
      rewrite reshape_ok by (cbn [shape tab]; numels; ring). cbn [bind].
      rewrite reshape_ok by (cbn [shape tab]; numels; ring). cbn [bind].
      set (tc := tab [b; c; c; n; n] (fun i => f (i_ 0 i) (i_ 2 i) (i_ 4 i))).
      set (tr := tab [b; c; c; n; n] (fun i => f (i_ 0 i) (i_ 1 i) (i_ 4 i))).
      set (ic := mkT [b * c * c; n; n] (data tc)).
      set (ir0 := mkT [b * c * c; n; n] (data tr)).
      assert (E3 : movedim 0 [-1]%Z [-2]%Z ir0 = tab3 (b * c * c) n n (fun i j k => get 0 ir0 [i; k; j])) by reflexivity.
      rewrite E3. set (ir := tab3 (b * c * c) n n (fun i j k => get 0 ir0 [i; k; j])).
      set (ar := tab3 (b * c * c) n n (fun i _ _ => i)). set (mm := mkT [b * c * c; n; n] (data t2)).
      (* flat positions *)
      set (R q ch cl := (q * c + ch) * c + cl).
      set (kk q ch cl s s' := (R q ch cl * n + s) * n + s').
      assert (RL : forall q ch cl, q < b -> ch < c -> cl < c -> R q ch cl < b * c * c).
      { intros q ch cl Hq Hch Hcl. unfold R. assert (q * c + ch < b * c) by nia. nia. }
      assert (Nv : numel (shape mm) = b * c * c * n * n) by (unfold mm; cbn [shape]; numels; ring).
      assert (KQ : forall k, k < b * c * c * n * n -> exists q ch cl s s', q < b /\ ch < c /\ cl < c /\ s < n /\ s' < n /\ k = kk q ch cl s s').
      { intros k Hk. destruct (divmod_lt k (b * c * c * n) n Hk) as (A & B & E). destruct (divmod_lt (k / n) (b * c * c) n A) as (A' & B' & E').
        destruct (divmod_lt (k / n / n) (b * c) c A') as (A2 & B2 & E2). destruct (divmod_lt (k / n / n / c) b c A2) as (A3 & B3 & E4).
        exists (k / n / n / c / c), ((k / n / n / c) mod c), ((k / n / n) mod c), ((k / n) mod n), (k mod n).
        repeat split; auto. unfold kk, R. now rewrite <- E4, <- E2, <- E'. }
      assert (kflat : forall A (d : A) (t : tensor A) q ch cl s s', shape t = [b * c * c; n; n] ->
         nth (kk q ch cl s s') (data t) d = get d t [R q ch cl; s; s']).
      { intros A d t q ch cl s s' S. unfold get. rewrite S. cbn [ravel]. f_equal. unfold kk. numels. ring. }
      assert (Ps : forall q ch cl s s', q < b -> ch < c -> cl < c -> s < n -> s' < n ->
        map (fun i => nth (kk q ch cl s s') (data i) 0) [ar; ir; ic] = [R q ch cl; f q ch s; f q cl s']).
      { intros q ch cl s s' Hq Hch Hcl Hs Hs'. pose proof (RL q ch cl Hq Hch Hcl) as HR.
        cbn [map]. rewrite !(kflat nat 0) by reflexivity.
        unfold ar. rewrite get_tab3 by auto. unfold ir. rewrite get_tab3 by auto.
        unfold ir0. rewrite (get_mkT 0 _ tr _ [q; ch; cl; s'; s]) by (cbn [shape tr tab ravel]; unfold R; numels; ring).
        unfold tr. rewrite get_tab by (cbn; auto 9). cbn [nth].
        unfold ic. rewrite (get_mkT 0 _ tc _ [q; ch; cl; s; s']) by (cbn [shape tc tab ravel]; unfold R; numels; ring).
        unfold tc. rewrite get_tab by (cbn; auto 9). cbn [nth]. reflexivity. }
      assert (Rinj : forall q ch cl q' ch' cl', ch < c -> cl < c -> ch' < c -> cl' < c -> R q ch cl = R q' ch' cl' -> q = q' /\ ch = ch' /\ cl = cl').
      { intros q ch cl q' ch' cl' H1 H2 H3 H4 E. unfold R in E. assert (q * c + ch = q' * c + ch') by nia. assert (cl = cl') by nia.
        assert (q = q') by nia. assert (ch = ch') by nia. auto. }
      destruct (index_put_ok [b * c * c; P; P] [ar; ir; ic] mm) as (t & E & S & W & Nt).
      - intros i [<-|[<-|[<-|[]]]]; reflexivity.
      - intros k Hk. rewrite Nv in Hk. destruct (KQ k Hk) as (q & ch & cl & s & s' & Hq & Hch & Hcl & Hs & Hs' & ->). rewrite Ps by auto.
        cbn. auto 9.
      - intros k k' Hk Hk'. rewrite Nv in Hk, Hk'.
        destruct (KQ k Hk) as (q & ch & cl & s & s2 & Hq & Hch & Hcl & Hs & Hs2 & ->).
        destruct (KQ k' Hk') as (q' & ch' & cl' & s' & s2' & Hq' & Hch' & Hcl' & Hs' & Hs2' & ->).
        rewrite !Ps by auto. intros E. injection E as E1 E2' E2. apply Rinj in E1 as (-> & -> & ->); auto.
        assert (s2 = s2') by (apply (Fi q' cl'); auto). assert (s = s') by (apply (Fi q' ch'); auto). now subst.
      - rewrite E. cbn [bind].
        assert (RS : numel [b; c; c; P; P] = numel (shape t)) by (rewrite S; numels; ring).
        rewrite reshape_ok by exact RS. cbn [bind].
        set (t3 := mkT [b; c; c; P; P] (data t)). rewrite (E5 _ n0 t3 b c c P P) by reflexivity.
        set (t4 := tab [b; c; P; c; P] _).
        rewrite reshape_ok by (cbn [t4 shape tab]; unfold P; numels; ring). f_equal.
        apply (tab3_eq n0); [|reflexivity|].
        { apply wf_mkT_reshape; [apply wf_tab|cbn [t4 shape tab]; unfold P; numels; ring]. }
        intros q j l Hq Hj Hl. fold D1 in Hj, Hl. rewrite D1P in Hj, Hl.
        destruct (divmod_lt j c P Hj) as (Aj & Bj & Ej). destruct (divmod_lt l c P Hl) as (Al & Bl & El).
        set (cj := j / P) in *. set (pj := j mod P) in *. set (cl := l / P) in *. set (pl := l mod P) in *.
        clearbody cj pj cl pl. subst j l.
        rewrite (get_mkT n0 _ t4 _ [q; cj; pj; cl; pl]).
        2:{ cbn [shape t4 tab ravel]. unfold P. numels. ring. }
        unfold t4. rewrite get_tab by (cbn; auto 9). cbn [nth].
        unfold t3. rewrite (get_mkT n0 _ t _ [R q cj cl; pj; pl]) by (rewrite S; cbn [ravel]; unfold R; numels; ring).
        unfold get. rewrite Nt, Nv. 
        rewrite (bsum_prod (b * c * c * n) n), (bsum_prod (b * c * c) n), (bsum_single (b * c * c) (R q cj cl)); auto.
        2:{ intros r Hr Ne. apply bsum_0. intros s Hs. apply bsum_0. intros s' Hs'.
            destruct (divmod_lt r (b * c) c Hr) as (A1 & B1 & F1). destruct (divmod_lt (r / c) b c A1) as (A2 & B2 & F2).
            set (r1 := r mod c) in *. set (q' := r / c / c) in *. set (r2 := (r / c) mod c) in *.
            assert (Er : r = R q' r2 r1) by (unfold R; now rewrite <- F2). rewrite Er in *. clearbody q' r1 r2.
            fold (kk q' r2 r1 s s'). rewrite Ps by auto. rewrite S. cbn [ravel]. rewrite delta_neq; [ring|].
            numels. intros E'. apply Ne. pose proof (Fb q' r2 s A2 B2 Hs). pose proof (Fb q' r1 s' A2 B1 Hs').
            assert (L1 : f q' r2 s * P + f q' r1 s' < P * P) by nia. assert (L2 : pj * P + pl < P * P) by nia. nia. }
        unfold pull_at. rewrite D2n. rewrite bsum_prod.
        rewrite (bsum_single c cj); auto.
        2:{ intros ch Hch Ne. apply bsum_0. intros s Hs. apply bsum_0. intros k Hk. rewrite Jn by auto.
            rewrite delta_flat by auto. rewrite (delta_neq ch) by auto. ring. }
        apply bsum_ext. intros s Hs. rewrite bsum_prod.
        rewrite (bsum_single c cl); auto.
        2:{ intros ch Hch Ne. apply bsum_0. intros s' Hs'. rewrite (Jn _ ch) by auto.
            rewrite delta_flat by auto. rewrite (delta_neq ch) by auto. ring. }
        apply bsum_ext. intros s' Hs'. rewrite !Jn by auto. rewrite !delta_flat by auto. rewrite !delta_refl.
        fold (kk q cj cl s s'). rewrite Ps by auto. rewrite S. cbn [ravel].
        assert (V : nth (kk q cj cl s s') (data mm) n0 = metric false M q (cj * n + s) (cl * n + s')).
        { rewrite (kflat _ n0 mm) by reflexivity. unfold mm.
          rewrite (get_mkT n0 _ t2 _ [q; cj; cl; s; s']) by (cbn [shape t2 tab ravel]; unfold R; numels; ring).
          unfold t2. rewrite get_tab by (cbn; auto 9). cbn [nth metric]. unfold t1. apply get_mkT. rewrite Sv, D2n. cbn [ravel]. numels. ring. }
        rewrite V. numels.
        replace (R q cj cl * (P * (P * 1)) + (f q cj s * (P * 1) + (f q cl s' * 1 + 0))) with (R q cj cl * (P * P) + (f q cj s * P + f q cl s')) by ring.
        replace (R q cj cl * (P * (P * 1)) + (pj * (P * 1) + (pl * 1 + 0))) with (R q cj cl * (P * P) + (pj * P + pl)) by ring.
        pose proof (Fb q cj s Hq Aj Hs). pose proof (Fb q cl s' Hq Al Hs').
        assert (L1 : f q cj s * P + f q cl s' < P * P) by nia. assert (L2 : pj * P + pl < P * P) by nia.
        rewrite delta_flat by auto. rewrite delta_refl. rewrite delta_flat by auto. ring.
    Qed.

    Lemma pool_pull_ok fd td db M : wf M -> shape M = metric_shape fd b D2 ->
      pool_jTmjp (Some idx) x y (Some M) Input fd td db = Ok (Some (pull b D2 D1 J fd td M)) /\
      pool_jTmjp (Some idx) x y (Some M) Weight fd td db = Ok None.
    Proof.
      intros WM SM. unfold pool_jTmjp, unpack4. rewrite Sx, Sy. cbn [bind]. rewrite Nat.eqb_refl. cbn [check]. fold D2.
      assert (Q : shape_eqb (shape M) (if fd then [b; D2] else [b; D2; D2]) = true).
      { apply shape_eqb_true. destruct fd; auto. }
      rewrite Q. cbn [check]. split; [|reflexivity]. destruct fd, td; cbn [metric_shape] in SM.
      - now rewrite pool_dd_ok by auto.
      - rewrite diag_embed2 with (b := b) (n := D2) by auto. cbn [bind].
        rewrite pool_full_ok by (try apply wf_tab; reflexivity). now rewrite pull_embed.
      - rewrite pool_full_ok by auto. cbn [bind]. now rewrite pull_diagonal.
      - now rewrite pool_full_ok by auto.
    Qed.
  End P.

  (** the first maximum lies in the window *)
  Lemma argmax_in (f : nat * nat -> K) l c : argmax f l = Some c -> In c l.
  Proof.
    unfold argmax. assert (G : forall l o, fold_left (fun best c => match best with None => Some c | Some b => if nltb (f b) (f c) then Some c else Some b end) l o = Some c -> In c l \/ o = Some c).
    { clear l. induction l as [|a l IH]; cbn; auto. intros o E. apply IH in E as [E|E]; auto. destruct o as [p|].
      - destruct nltb; injection E as <-; auto.
      - injection E as <-; auto. }
    intros E. apply G in E as [E|E]; auto. discriminate.
  Qed.
  Lemma argmax_some (f : nat * nat -> K) l : l <> [] -> exists c, argmax f l = Some c.
  Proof.
    unfold argmax. destruct l as [|a l]; [congruence|]. intros _. cbn [fold_left].
    assert (G : forall o, exists c, fold_left (fun best c => match best with None => Some c | Some b => if nltb (f b) (f c) then Some c else Some b end) l (Some o) = Some c).
    { induction l as [|a' l IH]; cbn; eauto. intros o. destruct nltb; auto. }
    apply G.
  Qed.
  Lemma in_cells ys xs p : In p (cells ys xs) <-> In (fst p) ys /\ In (snd p) xs.
  Proof.
    unfold cells. rewrite in_flat_map. split.
    - intros (y & Hy & Hp). apply in_map_iff in Hp as (x & <- & Hx). auto.
    - intros [Hy Hx]. exists (fst p). split; auto. apply in_map_iff. exists (snd p). split; auto. now destruct p.
  Qed.
  Lemma window_lt n k s p d o z : In z (window n k s p d o) -> z < n.
  Proof.
    unfold window. rewrite in_flat_map. intros (u & _ & Hz).
    destruct (Nat.leb_spec p (o * s + u * d)); cbn [andb In] in Hz; try contradiction.
    destruct (Nat.ltb_spec (o * s + u * d) (n + p)); cbn [andb In] in Hz; try contradiction. destruct Hz as [<-|[]]. lia.
  Qed.

  Section Cfg.
    Variables (cfg : pool_cfg) (c h w h2 w2 b : nat) (x : T).
    Hypothesis (Hc : 0 < c) (Hh : 0 < h) (Hw : 0 < w) (Hh2 : 0 < h2) (Hw2 : 0 < w2) (Hb : 0 < b).
    Hypothesis (Wx : wf x) (Sx : shape x = [b; c; h; w]).
    Hypothesis (L1 : pool_len h (fst (pk cfg)) (fst (ps cfg)) (fst (pp cfg)) (fst (pd cfg)) (pceil cfg) = Some h2).
    Hypothesis (L2 : pool_len w (snd (pk cfg)) (snd (ps cfg)) (snd (pp cfg)) (snd (pd cfg)) (pceil cfg) = Some w2).
    Hypothesis (O1 : windows_ok h (fst (pk cfg)) (fst (ps cfg)) (fst (pp cfg)) (fst (pd cfg)) h2).
    Hypothesis (O2 : windows_ok w (snd (pk cfg)) (snd (ps cfg)) (snd (pp cfg)) (snd (pd cfg)) w2).

    Lemma pool_cell_some n ch y0 x0 : y0 < h2 -> x0 < w2 -> exists cy cx, pool_cell cfg x h w n ch y0 x0 = Some (cy, cx) /\
      In cy (window h (fst (pk cfg)) (fst (ps cfg)) (fst (pp cfg)) (fst (pd cfg)) y0) /\
      In cx (window w (snd (pk cfg)) (snd (ps cfg)) (snd (pp cfg)) (snd (pd cfg)) x0).
    Proof.
      intros Hy Hx. unfold pool_cell. set (l := cells _ _). assert (l <> []) as Nl.
      { intros E. specialize (O1 y0 Hy). specialize (O2 x0 Hx).
        destruct (window h _ _ _ _ y0) as [|a ys] eqn:Ey; [congruence|]. destruct (window w _ _ _ _ x0) as [|a' xs] eqn:Ex; [congruence|].
        assert (I : In (a, a') l) by (unfold l; apply in_cells; cbn; auto). rewrite E in I. contradiction. }
      destruct (argmax_some (fun q => gt x [n; ch; fst q; snd q]) l Nl) as [[cy cx] E]. exists cy, cx. split; auto.
      apply argmax_in in E. apply in_cells in E. auto.
    Qed.
    Lemma pool_ok_fwd : exists y i, max_pool2d cfg x = Ok (y, i) /\ wf y /\ shape y = [b; c; h2; w2] /\ wf i /\ shape i = [b; c; h2; w2] /\
      (forall n ch y0 x0, n < b -> ch < c -> y0 < h2 -> x0 < w2 ->
        exists cy cx, pool_cell cfg x h w n ch y0 x0 = Some (cy, cx) /\ get 0 i [n; ch; y0; x0] = cy * w + cx /\
          gt y [n; ch; y0; x0] = gt x [n; ch; cy; cx] /\ cy < h /\ cx < w /\
      In cy (window h (fst (pk cfg)) (fst (ps cfg)) (fst (pp cfg)) (fst (pd cfg)) y0) /\
      In cx (window w (snd (pk cfg)) (snd (ps cfg)) (snd (pp cfg)) (snd (pd cfg)) x0)).
    Proof.
      unfold max_pool2d, max_pool4. rewrite Sx, L1, L2.
      replace (forallb _ (seq 0 (numel [b; c; h2; w2]))) with true.
      2:{ symmetry. apply forallb_forall. intros k Hk. apply in_seq in Hk.
          assert (V : valid [b; c; h2; w2] (unravel [b; c; h2; w2] k)) by (apply unravel_valid; lia).
          destruct (unravel [b; c; h2; w2] k) as [|n [|ch [|y0 [|x0 [|? ?]]]]]; cbn in V; try tauto.
          destruct V as (_ & _ & Hy & Hx & _).
          destruct (pool_cell_some n ch y0 x0 Hy Hx) as (cy & cx & -> & _). reflexivity. }
      eexists. eexists. split; [reflexivity|]. split; [apply wf_tab|]. split; [reflexivity|]. split; [apply wf_tab|]. split; [reflexivity|].
      intros n ch y0 x0 Hn Hch Hy Hx. destruct (pool_cell_some n ch y0 x0 Hy Hx) as (cy & cx & E & I1 & I2).
      exists cy, cx. rewrite !get_tab4, E by auto. split; auto. split; auto. split; auto.
      repeat split; auto; eapply window_lt; eauto.
    Qed.
    Variables (y : T) (i : tensor nat).
    Hypothesis E : max_pool2d cfg x = Ok (y, i).
    Let f q ch s := nth ((q * c + ch) * (h2 * w2) + s) (data i) 0.
    Lemma pool_fget : shape i = [b; c; h2; w2] -> forall q ch y0 x0, f q ch (y0 * w2 + x0) = get 0 i [q; ch; y0; x0].
    Proof. intros Si q ch y0 x0. unfold f, get. rewrite Si. cbn [ravel]. numels. f_equal. ring. Qed.
    Lemma pool_fs s : s < h2 * w2 -> exists y0 x0, y0 < h2 /\ x0 < w2 /\ s = y0 * w2 + x0.
    Proof. intros Hs. destruct (divmod_lt s h2 w2 Hs) as (A & B & Es). eauto. Qed.
    (** the indices max pooling keeps, whether or not windows overlap *)
    Lemma pool_facts0 : wf y /\ shape y = [b; c; h2; w2] /\ wf i /\ shape i = [b; c; h2; w2] /\
      (forall q ch s, q < b -> ch < c -> s < h2 * w2 -> f q ch s < h * w) /\
      (forall q k, q < b -> k < c * h2 * w2 -> pool_src cfg x q k = k / (h2 * w2) * (h * w) + f q (k / (h2 * w2)) (k mod (h2 * w2))).
    Proof.
      destruct pool_ok_fwd as (y' & i' & E' & Wy & Sy & Wi & Si & G). rewrite E in E'. injection E' as <- <-.
      split; auto. split; auto. split; auto. split; auto. pose proof (pool_fget Si) as Fg.
      split.
      - intros q ch s Hq Hch Hs. destruct (pool_fs s Hs) as (y0 & x0 & Hy & Hx & ->). rewrite Fg.
        destruct (G q ch y0 x0) as (cy & cx & _ & -> & _ & B1 & B2 & _); auto. nia.
      - intros q k Hq Hk. unfold pool_src, dim. rewrite Sx. cbn [nth]. rewrite L1, L2.
        assert (Hk' : k < c * (h2 * w2)) by nia. destruct (divmod_lt k c (h2 * w2) Hk') as (A & B & Ek).
        destruct (pool_fs _ B) as (y0 & x0 & Hy & Hx & Es). rewrite Es, Fg.
        assert (M1 : (y0 * w2 + x0) / w2 = y0) by apply divmod_flat, Hx.
        assert (M2 : k mod w2 = x0).
        { rewrite Ek, Es. replace (k / (h2 * w2) * (h2 * w2) + (y0 * w2 + x0)) with ((k / (h2 * w2) * h2 + y0) * w2 + x0) by ring.
          apply divmod_flat, Hx. }
        rewrite M1, M2. destruct (G q (k / (h2 * w2)) y0 x0) as (cy & cx & -> & -> & _); auto. ring.
    Qed.
    Hypothesis (X1 : disjoint_windows h (fst (pk cfg)) (fst (ps cfg)) (fst (pp cfg)) (fst (pd cfg)) h2).
    Hypothesis (X2 : disjoint_windows w (snd (pk cfg)) (snd (ps cfg)) (snd (pp cfg)) (snd (pd cfg)) w2).
    Lemma pool_facts : wf y /\ shape y = [b; c; h2; w2] /\ wf i /\ shape i = [b; c; h2; w2] /\
      let f q ch s := nth ((q * c + ch) * (h2 * w2) + s) (data i) 0 in
      (forall q ch s, q < b -> ch < c -> s < h2 * w2 -> f q ch s < h * w) /\
      (forall q ch s s', q < b -> ch < c -> s < h2 * w2 -> s' < h2 * w2 -> f q ch s = f q ch s' -> s = s') /\
      (forall q k, q < b -> k < c * h2 * w2 -> pool_src cfg x q k = k / (h2 * w2) * (h * w) + f q (k / (h2 * w2)) (k mod (h2 * w2))).
    Proof.
      destruct pool_facts0 as (Wy & Sy & Wi & Si & F1 & F3). repeat match goal with |- _ /\ _ => split; [assumption|] end.
      intros f0. split; [exact F1|]. split; [|exact F3]. change f0 with f.
      destruct pool_ok_fwd as (y' & i' & E' & _ & _ & _ & _ & G). rewrite E in E'. injection E' as <- <-.
      pose proof (pool_fget Si) as Fg.
      intros q ch s s' Hq Hch Hs Hs'. destruct (pool_fs s Hs) as (y0 & x0 & Hy & Hx & ->).
      destruct (pool_fs s' Hs') as (y1 & x1 & Hy1 & Hx1 & ->). rewrite !Fg.
      destruct (G q ch y0 x0) as (cy & cx & _ & -> & _ & B1 & B2 & I1 & I2); auto.
      destruct (G q ch y1 x1) as (cy1 & cx1 & _ & -> & _ & B3 & B4 & I3 & I4); auto.
      intros Q. assert (cy = cy1) by nia. assert (cx = cx1) by nia. subst cy1 cx1.
      rewrite (X1 y0 y1 cy), (X2 x0 x1 cx); auto.
    Qed.
  End Cfg.

  Lemma pool_spec cfg s s' : pool_typed cfg s s' ->
    @pool_fwd_spec K _ cfg s s' /\ pool_vjp_spec cfg s s' /\ pool_mjp_spec cfg s s' /\ pool_pull_spec cfg s s'.
  Proof.
    intros (N & N' & Ty). destruct s as [|c [|h [|w [|? ?]]]]; try contradiction.
    destruct s' as [|c' [|h2 [|w2 [|? ?]]]]; try contradiction. destruct Ty as (-> & L1 & L2 & O1 & O2 & X1 & X2).
    numels. assert (0 < c) by nia. assert (0 < h) by nia. assert (0 < w) by nia. assert (0 < h2) by nia. assert (0 < w2) by nia.
    assert (E1 : numel [c; h; w] = c * h * w) by (numels; ring).
    assert (E2 : numel [c; h2; w2] = c * h2 * w2) by (numels; ring).
    assert (FA : forall b x y i, 0 < b -> wf x -> shape x = [b; c; h; w] -> max_pool2d cfg x = Ok (y, i) -> wf y /\ shape y = [b; c; h2; w2] /\ wf i /\ shape i = [b; c; h2; w2] /\
      let f q ch s := nth ((q * c + ch) * (h2 * w2) + s) (data i) 0 in
      (forall q ch s, q < b -> ch < c -> s < h2 * w2 -> f q ch s < h * w) /\
      (forall q ch s s', q < b -> ch < c -> s < h2 * w2 -> s' < h2 * w2 -> f q ch s = f q ch s' -> s = s') /\
      (Jeq b (c * h2 * w2) (c * h * w) (fun q i j => delta (i / (h2 * w2) * (h * w) + f q (i / (h2 * w2)) (i mod (h2 * w2))) j) (JX (MaxPool cfg) x))).
    { intros b x y i Hb Wx Sx E.
      assert (PF := pool_facts cfg c h w h2 w2 b x). do 20 (try match type of PF with ?A -> _ => specialize (PF ltac:(assumption)) end).
      destruct PF as (Wy & Sy & Wi & Si & F1 & F2 & F3).
      split; auto. split; auto. split; auto. split; auto. intros f. split; auto. split; auto.
      intros q k j Hq Hk Hj. cbn [JX]. now rewrite F3 by auto. }
    assert (0 < h2 * w2) by nia. assert (0 < h * w) by nia.
    split; [|split; [|split]].
    - intros b x Hb Wx Sx. assert (PF := pool_ok_fwd cfg c h w h2 w2 b x). do 20 (try match type of PF with ?A -> _ => specialize (PF ltac:(assumption)) end).
      destruct PF as (y & i & E & Wy & Sy & _). eauto.
    - intros b x y i v Hb Wx Sx E Wv Sv. rewrite E1, E2 in *. destruct (FA b x y i Hb Wx Sx E) as (Wy & Sy & Wi & Si & F1 & F2 & F3).
      rewrite <- (vJ_Jext _ _ _ _ _ v F3). eapply pool_vjp_ok; eauto.
    - intros b x y i Hb Wx Sx E. rewrite E1, E2 in *. destruct (FA b x y i Hb Wx Sx E) as (Wy & Sy & Wi & Si & F1 & F2 & F3). split.
      + intros r M Hr WM SM. rewrite <- (MJ_Jext _ _ _ _ _ _ M F3). eapply pool_mjp_ok; eauto.
      + rewrite <- (dense_ext _ _ _ _ _ F3). eapply pool_jac_ok; eauto.
    - intros b x y i Hb Wx Sx E fd td db M F WM SM. rewrite E1, E2 in *. destruct (FA b x y i Hb Wx Sx E) as (Wy & Sy & Wi & Si & F1 & F2 & F3).
      rewrite <- (pull_Jext _ _ _ _ _ _ _ M F3). eapply pool_pull_ok; eauto.
  Qed.
End Pool.
