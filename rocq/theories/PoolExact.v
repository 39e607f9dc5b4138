(** Max pooling without the assumption that windows are disjoint: jacobian is always right, and the
    backward products are right exactly when no input entry is selected twice. *)
From Coq Require Import String Ascii List Arith ZArith Lia Bool.
From Verif Require Import Scalar Sums Tensor TensorLemmas EinsumLemmas Conv Abstract Simple LinearLayer ConvLayer PoolLayer
  Module Spec OpLemmas ReshapeLemmas Jac LeafSpec LeafSimple LeafUpsample TreeBase TreeVjp TreeMjp TreePull LeafPool.
Import ListNotations.
Local Open Scope nat_scope.
Local Open Scope list_scope.

(** sizes for which max pooling maps samples of shape s to samples of shape s': every window holds at
    least one input position (windows may overlap) *)
Definition pool_sized (cfg : pool_cfg) (s s' : list nat) : Prop :=
  match s, s' with
  | [c; h; w], [c'; h2; w2] =>
      c' = c /\ 0 < c /\ 0 < h /\ 0 < w /\ 0 < h2 /\ 0 < w2 /\
      pool_len h (fst (pk cfg)) (fst (ps cfg)) (fst (pp cfg)) (fst (pd cfg)) (pceil cfg) = Some h2 /\
      pool_len w (snd (pk cfg)) (snd (ps cfg)) (snd (pp cfg)) (snd (pd cfg)) (pceil cfg) = Some w2 /\
      windows_ok h (fst (pk cfg)) (fst (ps cfg)) (fst (pp cfg)) (fst (pd cfg)) h2 /\
      windows_ok w (snd (pk cfg)) (snd (ps cfg)) (snd (pp cfg)) (snd (pd cfg)) w2
  | _, _ => False
  end.

(** no input entry is selected by two output entries *)
Definition no_double {K} `{Num K} (b m n : nat) (J : tensor K) : Prop :=
  forall q i i' j, q < b -> i < m -> i' < m -> j < n -> entry J q i j = n1 -> entry J q i' j = n1 -> i = i'.

Lemma flat_below a c P g : a < c -> g < P -> a * P + g < c * P.
Proof. intros. nia. Qed.

Section PutLast.
  Context {K} `{CR : CRing K}.
  Add Ring Kring : (cring : ring_theory n0 n1 nadd nmul nsub nopp (@eq K)).
  Notation T := (tensor K).

  Lemma arange_nth A B k : k < A * B -> nth k (data (arange_rep A B)) 0 = k / B.
  Proof.
    intros Hk. unfold arange_rep, tab2. rewrite flat_tab by (numels; lia). cbn [unravel nth]. now rewrite numel_cons, numel_nil, Nat.mul_1_r.
  Qed.
  (** a later write of zero at the same place erases the one at k0 *)
  Lemma put_last n (p : nat -> nat) (v : nat -> K) (l0 : list K) k0 k1 :
    (forall k, k < n -> p k < length l0) -> (forall k, k <> k0 -> v k = n0) -> k0 < k1 -> k1 < n -> p k1 = p k0 ->
    let l := fold_left (fun l k => set_nth (p k) (v k) l) (seq 0 n) l0 in
    length l = length l0 /\ nth (p k0) l n0 = n0.
  Proof.
    intros B V L. revert k1 L. induction n as [|n IH]; intros k1 L L1 E; [lia|].
    cbn zeta. rewrite seq_S, fold_left_app. cbn [fold_left Nat.add]. set (l := fold_left _ (seq 0 n) l0) in *.
    assert (Ll : length l = length l0).
    { unfold l. clear. generalize (seq 0 n). intros ks. revert l0. induction ks as [|k ks IH]; intros l0; cbn; auto.
      rewrite IH. apply length_set_nth. }
    split; [now rewrite length_set_nth|]. rewrite nth_set_nth by (rewrite Ll; apply B; lia).
    destruct (Nat.eqb_spec (p k0) (p n)) as [Q|Q]; [apply V; lia|].
    assert (k1 <> n) by (intros ->; congruence).
    apply (IH ltac:(intros; apply B; lia) k1); lia || auto.
  Qed.

  Lemma index_put_eq s idxs (v : T) :
    (forall i, In i idxs -> shape i = shape v) ->
    let n := numel (shape v) in
    let pos k := map (fun i => nth k (data i) 0) idxs in
    (forall k, k < n -> valid s (pos k)) ->
    index_put (zeros s) idxs v = Ok (mkT s (fold_left (fun l k => set_nth (ravel s (pos k)) (nth k (data v) n0) l) (seq 0 n) (data (zeros s)))).
  Proof.
    intros Hs n pos Hv. unfold index_put.
    replace (forallb (fun i => shape_eqb (shape i) (shape v)) idxs) with true.
    2:{ symmetry. apply forallb_forall. intros i Hi. rewrite Hs by auto. apply shape_eqb_refl. }
    cbn [check]. replace (forallb _ (seq 0 (numel (shape v)))) with true; [reflexivity|].
    symmetry. apply forallb_forall. intros k Hk. apply in_seq in Hk. specialize (Hv k ltac:(unfold n; lia)).
    unfold pos in Hv. cbn [shape zeros fill_with tab]. revert Hv. generalize (map (fun i => nth k (data i) 0) idxs). clear. intros l. revert s.
    induction l as [|a l IH]; intros [|d s]; cbn [combine forallb fst snd valid]; auto; try tauto. intros [H1 H2].
    rewrite (proj2 (Nat.ltb_lt _ _) H1). cbn [andb]. now apply IH.
  Qed.
End PutLast.

Section PoolExact.
  Context {K} `{CR : CRing K}.
  Add Ring Kring : (cring : ring_theory n0 n1 nadd nmul nsub nopp (@eq K)).
  Notation gt := (get (@n0 K _)).
  Notation T := (tensor K).
  Hypothesis One : (@n1 K _) <> n0.

  Section P.
    Variables (b c h1 w1 h2 w2 : nat) (x y : T) (idx : tensor nat).
    Notation P := (h1 * w1).
    Notation n := (h2 * w2).
    Hypothesis (Hb : 0 < b) (Hc : 0 < c) (Hn : 0 < n) (HP : 0 < P).
    Hypothesis (Wx : wf x) (Sx : shape x = [b; c; h1; w1]) (Sy : shape y = [b; c; h2; w2]).
    Hypothesis (Wi : wf idx) (Si : shape idx = [b; c; h2; w2]).
    Let f (q ch s : nat) : nat := nth ((q * c + ch) * n + s) (data idx) 0.
    Hypothesis (Fb : forall q ch s, q < b -> ch < c -> s < n -> f q ch s < P).
    Let J : nat -> nat -> nat -> K := fun q i j => delta (i / n * P + f q (i / n) (i mod n)) j.
    Notation D1 := (c * h1 * w1).
    Notation D2 := (c * h2 * w2).

    Lemma pool_double q ch s s' : q < b -> ch < c -> s < s' -> s' < n -> f q ch s = f q ch s' ->
      exists v, wf v /\ shape v = [b; D2] /\ pool_vjp (Some idx) x y v <> Ok (vJ b D2 D1 J v).
    Proof using CR Hb Hc Hn HP Sx Sy Si Fb One.
      intros Hq Hch Hs Hs' Ef. set (k0 := (q * c + ch) * n + s). set (k1 := (q * c + ch) * n + s').
      set (v := tab2 b D2 (fun q' i => delta (q' * D2 + i) k0) : T).
      exists v. split; [apply wf_tab|]. split; [reflexivity|].
      assert (D2e : D2 = c * n) by ring. assert (D1e : D1 = c * P) by ring.
      assert (Nd : forall k, k < b * c * n -> nth k (data v) n0 = delta k k0).
      { intros k Hk. assert (Hk' : k < b * D2) by (rewrite D2e; lia). destruct (divmod_lt k b D2 Hk') as (A & B & Ek).
        unfold v, tab2. rewrite flat_tab by (numels; lia). cbn [unravel nth]. rewrite numel_cons, numel_nil, Nat.mul_1_r.
        rewrite Nat.div_1_r. now rewrite Nat.mul_comm, <- Nat.div_mod by lia. }
      unfold pool_vjp, unpack4. rewrite Sx, Sy. cbn [bind]. rewrite Nat.eqb_refl. cbn [check].
      change (shape v) with [b; D2]. rewrite shape_eqb_refl. cbn [check].
      rewrite reshape_ok by (change (shape v) with [b; D2]; rewrite D2e; numels; ring). cbn [bind idx_of].
      rewrite reshape_ok by (rewrite Si; numels; ring). cbn [bind].
      assert (KQ : forall k, k < b * c * n -> exists q ch s, q < b /\ ch < c /\ s < n /\ k = (q * c + ch) * n + s).
      { intros k Hk. destruct (divmod_lt k (b * c) n Hk) as (A & B & E). destruct (divmod_lt (k / n) b c A) as (A' & B' & E').
        exists (k / n / c), ((k / n) mod c), (k mod n). rewrite <- E'. auto. }
      assert (Ps : forall k, k < b * c * n -> map (fun i => nth k (data i) 0) [arange_rep (b * c) n; mkT [b * c; n] (data idx)] =
         [k / n; nth k (data idx) 0]).
      { intros k Hk. cbn [map data]. now rewrite arange_nth. }
      assert (Vp : forall k, k < b * c * n -> valid [b * c; P] [k / n; nth k (data idx) 0]).
      { intros k Hk. destruct (KQ k Hk) as (q' & ch' & s0 & Hq' & Hch' & Hs0 & ->). change (nth ((q' * c + ch') * n + s0) (data idx) 0) with (f q' ch' s0).
        destruct (divmod_flat n (q' * c + ch') s0 Hs0) as [-> _]. cbn. repeat split; auto. nia. }
      assert (Nv : numel [b * c; n] = b * c * n) by (numels; ring).
      rewrite index_put_eq.
      2:{ intros i [<-|[<-|[]]]; reflexivity. }
      2:{ intros k Hk. cbn [shape] in Hk. rewrite Nv in Hk. rewrite Ps by auto. auto. }
      cbn [bind shape data]. rewrite Nv. set (l := fold_left _ _ _). rewrite reshape_ok by (cbn [shape]; rewrite D1e; numels; ring).
      cbn [data]. intros E. assert (E' : mkT [b; D1] l = vJ b D2 D1 J v) by congruence. apply (f_equal data) in E'. clear E. rename E' into E. cbn [data] in E.
      assert (QC : q * c + ch + 1 <= b * c) by nia. apply (Nat.mul_le_mono_r _ _ n) in QC.
      assert (K0 : k0 < b * c * n) by (unfold k0; lia). assert (K1 : k1 < b * c * n) by (unfold k1; lia).
      assert (X : nth (q * D1 + (ch * P + f q ch s)) l n0 = n0).
      { assert (Lz : length (data (@zeros K _ [b * c; P])) = b * c * P).
        { unfold zeros, fill_with, tab. cbn [data]. rewrite map_length, seq_length. numels; ring. }
        set (p := fun k => ravel [b * c; P] (map (fun i => nth k (data i) 0) [arange_rep (b * c) n; mkT [b * c; n] (data idx)])).
        destruct (put_last (b * c * n) p (fun k => delta k k0) (data (@zeros K _ [b * c; P])) k0 k1) as [_ Z].
        - intros k Hk. unfold p. rewrite Ps by auto. rewrite Lz. specialize (Vp k Hk). cbn in Vp. cbn [ravel]. numels. nia.
        - intros k Hk. apply delta_neq; auto.
        - unfold k0, k1. lia.
        - auto.
        - unfold p. rewrite !Ps by auto. unfold k0, k1. destruct (divmod_flat n (q * c + ch) s ltac:(lia)) as [-> _].
          destruct (divmod_flat n (q * c + ch) s' Hs') as [-> _]. fold (f q ch s) (f q ch s'). now rewrite Ef.
        - etransitivity; [|exact Z]. assert (Pk : p k0 = q * D1 + (ch * P + f q ch s)).
          { unfold p. rewrite Ps by auto. unfold k0. destruct (divmod_flat n (q * c + ch) s ltac:(lia)) as [-> _]. fold (f q ch s).
            cbn [ravel]. numels. ring. }
          rewrite Pk. f_equal. unfold l, p. clear - Nd.
          assert (G : forall ks (l0 : list K), (forall k, In k ks -> k < b * c * n) ->
            fold_left (fun l k => set_nth (ravel [b * c; P] (map (fun i => nth k (data i) 0) [arange_rep (b * c) n; mkT [b * c; n] (data idx)])) (nth k (data v) n0) l) ks l0 =
            fold_left (fun l k => set_nth (ravel [b * c; P] (map (fun i => nth k (data i) 0) [arange_rep (b * c) n; mkT [b * c; n] (data idx)])) (delta k k0) l) ks l0).
          { induction ks as [|k ks IH]; intros l0 Hk; cbn [fold_left]; auto. rewrite Nd by (apply Hk; now left). apply IH. intros; apply Hk; now right. }
          apply G. intros k Hk. apply in_seq in Hk. lia. }
      rewrite E in X. revert X.
      assert (Hj : ch * P + f q ch s < D1) by (rewrite D1e; specialize (Fb q ch s Hq Hch ltac:(lia)); nia).
      change (nth (q * D1 + (ch * P + f q ch s)) (data (tab2 b D1 (fun q j => bsum D2 (fun i => nmul (gt v [q; i]) (J q i j))))) n0 = n0 -> False).
      replace (nth (q * D1 + (ch * P + f q ch s)) (data (tab2 b D1 (fun q j => bsum D2 (fun i => nmul (gt v [q; i]) (J q i j))))) n0)
        with (get n0 (tab2 b D1 (fun q j => bsum D2 (fun i => nmul (gt v [q; i]) (J q i j)))) [q; ch * P + f q ch s]).
      2:{ unfold get. cbn [shape tab2 tab ravel]. numels. f_equal. ring. }
      rewrite get_tab2 by auto. assert (Hi : ch * n + s < D2) by (rewrite D2e; nia).
      rewrite (bsum_single D2 (ch * n + s)); auto.
      + unfold v. rewrite get_tab2 by auto. unfold J. destruct (divmod_flat n ch s ltac:(lia)) as [-> ->].
        unfold k0. replace (q * D2 + (ch * n + s)) with ((q * c + ch) * n + s) by (rewrite D2e; ring). rewrite !delta_refl.
        intros Q. apply One. rewrite <- Q. ring.
      + intros i Hi' Ni. unfold v. rewrite get_tab2 by auto. rewrite delta_neq; [ring|]. unfold k0. rewrite D2e. lia.
    Qed.
  End P.

  Section M.
    Variables (cfg : pool_cfg) (s s' : list nat) (b : nat) (x : T).
    Hypothesis (Ty : pool_sized cfg s s') (Hb : 0 < b) (Wx : wf x) (Sx : shape x = b :: s).

    Lemma pool_jac_any : exists J : T, wf J /\ shape J = [b; numel s'; numel s] /\
      (forall h, snd (jacobian (MaxPool cfg) h x None Input) = Ok (Some J)) /\
      (forall q i, q < b -> i < numel s' -> exists j, j < numel s /\ forall j', j' < numel s -> entry J q i j' = delta j j') /\
      (exists y, fwd (MaxPool cfg) x = Ok y /\ wf y /\ shape y = b :: s' /\
         forall q i, q < b -> i < numel s' ->
           nth (q * numel s' + i) (data y) n0 = bsum (numel s) (fun j => nmul (entry J q i j) (nth (q * numel s + j) (data x) n0))) /\
      (no_double b (numel s') (numel s) J ->
        (forall h v, wf v -> shape v = [b; numel s'] ->
           snd (vjp (MaxPool cfg) h x None v Input) = Ok (Some (vJ b (numel s') (numel s) (entry J) v))) /\
        (forall h r M, 0 < r -> wf M -> shape M = [b; r; numel s'] ->
           snd (mjp (MaxPool cfg) h x None (Some M) Input) = Ok (Some (MJ b r (numel s') (numel s) (entry J) M))) /\
        (forall h fd td db M, wf M -> shape M = metric_shape fd b (numel s') ->
           snd (jTmjp (MaxPool cfg) h x None (VT M) Input fd td db) = Ok (VT (pull b (numel s') (numel s) (entry J) fd td M)))) /\
      ((forall h v, wf v -> shape v = [b; numel s'] ->
           snd (vjp (MaxPool cfg) h x None v Input) = Ok (Some (vJ b (numel s') (numel s) (entry J) v))) ->
        no_double b (numel s') (numel s) J).
    Proof using CR One Ty Hb Wx Sx.
      unfold pool_sized in Ty. destruct s as [|c [|h1 [|w1 [|? ?]]]]; try contradiction.
      destruct s' as [|c' [|h2 [|w2 [|? ?]]]]; try contradiction.
      destruct Ty as (-> & Hc & Hh & Hw & Hh2 & Hw2 & L1 & L2 & O1 & O2).
      assert (E1 : numel [c; h1; w1] = c * h1 * w1) by (numels; ring).
      assert (E2 : numel [c; h2; w2] = c * h2 * w2) by (numels; ring). rewrite !E1, !E2.
      destruct (pool_ok_fwd cfg c h1 w1 h2 w2 b x) as (y & i & E & Wy & Sy & Wi & Si & G); auto.
      destruct (pool_facts0 cfg c h1 w1 h2 w2 b x) with (y := y) (i := i) as (_ & _ & _ & _ & F1 & F3); auto.
      set (f := fun q ch s => nth ((q * c + ch) * (h2 * w2) + s) (data i) 0) in *.
      set (JF := fun q k j => @delta K _ (k / (h2 * w2) * (h1 * w1) + f q (k / (h2 * w2)) (k mod (h2 * w2))) j).
      set (D1 := c * h1 * w1) in *. set (D2 := c * h2 * w2) in *.
      assert (D1e : D1 = c * (h1 * w1)) by (unfold D1; ring). assert (D2e : D2 = c * (h2 * w2)) by (unfold D2; ring).
      assert (Hn : 0 < h2 * w2) by nia. assert (HP : 0 < h1 * w1) by nia.
      set (J := dense b D2 D1 JF).
      assert (EJ : forall q k j, q < b -> k < D2 -> j < D1 -> entry J q k j = JF q k j).
      { intros. unfold entry, J, dense. now rewrite get_tab3. }
      assert (EQ : Jeq b D2 D1 JF (entry J)) by (intros q k j Hq Hk Hj; now rewrite EJ).
      assert (Src : forall q k, q < b -> k < D2 -> k / (h2 * w2) * (h1 * w1) + f q (k / (h2 * w2)) (k mod (h2 * w2)) < D1).
      { intros q k Hq Hk. rewrite D2e in Hk. destruct (divmod_lt k c (h2 * w2) Hk) as (A & B & _). specialize (F1 q _ _ Hq A B).
        rewrite D1e. now apply flat_below. }
      exists J. split; [apply wf_tab|]. split; [reflexivity|]. split; [|split; [|split; [|split]]].
      - intros h. cbn [jacobian maxpool_jacobian ensure forward]. rewrite E. cbn [snd bind st_idx].
        unfold J. rewrite (pool_jac_ok b c h1 w1 h2 w2 x y i) by auto. reflexivity.
      - intros q k Hq Hk. eexists. split; [apply (Src q k Hq Hk)|]. intros j' Hj'. now rewrite EJ.
      - exists y. unfold fwd. cbn [forward]. rewrite E. cbn [snd]. split; [reflexivity|]. split; auto. split; auto.
        intros q k Hq Hk. erewrite bsum_ext by (intros j Hj; rewrite EJ by auto; unfold JF; reflexivity).
        rewrite (bsum_delta_l D1 _ (fun j => nth (q * D1 + j) (data x) n0)) by auto.
        rewrite D2e in Hk. destruct (divmod_lt k c (h2 * w2) Hk) as (A & B & Ek).
        destruct (pool_fs h2 w2 _ B) as (y0 & x0 & Hy & Hx & Es).
        destruct (G q (k / (h2 * w2)) y0 x0) as (cy & cx & _ & Gi & Gy & B1 & B2 & _); auto.
        rewrite Es. unfold f. rewrite <- Es. unfold get in Gi, Gy. rewrite Si in Gi. rewrite Sy, Sx in Gy. cbn [ravel] in Gi, Gy.
        rewrite !numel_cons, !numel_nil in Gi, Gy.
        replace (q * D2 + k) with (q * (c * (h2 * (w2 * 1))) + (k / (h2 * w2) * (h2 * (w2 * 1)) + (y0 * (w2 * 1) + (x0 * 1 + 0)))) by (rewrite D2e; rewrite Ek at 2; rewrite Es; ring).
        rewrite Gy. f_equal. rewrite Es.
        replace ((q * c + k / (h2 * w2)) * (h2 * w2) + (y0 * w2 + x0)) with (q * (c * (h2 * (w2 * 1))) + (k / (h2 * w2) * (h2 * (w2 * 1)) + (y0 * (w2 * 1) + (x0 * 1 + 0)))) by ring.
        rewrite Gi. rewrite D1e. numels. ring.
      - intros ND. assert (Fi : forall q ch s s', q < b -> ch < c -> s < h2 * w2 -> s' < h2 * w2 -> f q ch s = f q ch s' -> s = s').
        { intros q ch s0 s1 Hq Hch H0 H1 Ef. assert (B0 : ch * (h2 * w2) + s0 < D2) by (rewrite D2e; now apply flat_below).
          assert (B1 : ch * (h2 * w2) + s1 < D2) by (rewrite D2e; now apply flat_below).
          assert (BJ : ch * (h1 * w1) + f q ch s0 < D1) by (rewrite D1e; specialize (F1 q ch s0 Hq Hch H0); now apply flat_below).
          assert (Q := ND q (ch * (h2 * w2) + s0) (ch * (h2 * w2) + s1) (ch * (h1 * w1) + f q ch s0) Hq B0 B1 BJ).
          rewrite !EJ in Q by auto. unfold JF in Q.
          destruct (divmod_flat (h2 * w2) ch s0 H0) as [Q1 Q2]. destruct (divmod_flat (h2 * w2) ch s1 H1) as [Q3 Q4].
          rewrite Q1, Q2, Q3, Q4 in Q. rewrite <- Ef in Q. rewrite delta_refl in Q. specialize (Q eq_refl eq_refl). lia. }
        split; [|split].
        + intros h v Wv Sv. cbn [vjp ensure forward]. rewrite E. cbn [snd bind st_idx].
          rewrite (pool_vjp_ok b c h1 w1 h2 w2 x y i) by auto. cbn [some bind]. now rewrite <- (vJ_Jext _ _ _ _ _ v EQ).
        + intros h r M Hr WM SM. cbn [mjp ensure forward]. rewrite E. cbn [snd bind st_idx].
          rewrite (pool_mjp_ok b c h1 w1 h2 w2 x y i) with (r := r) by auto. cbn [some bind]. now rewrite <- (MJ_Jext _ _ _ _ _ _ M EQ).
        + intros h fd td db M WM SM. cbn [jTmjp ensure forward]. rewrite E. cbn [snd bind st_idx to_opt].
          destruct (pool_pull_ok b c h1 w1 h2 w2 x y i) with (fd := fd) (td := td) (db := db) (M := M) as [-> _]; auto.
          cbn [bind of_opt]. now rewrite <- (pull_Jext _ _ _ _ _ _ _ M EQ).
      - intros HV.
        assert (Key : forall q k k' j, q < b -> k < k' -> k' < D2 -> j < D1 -> entry J q k j = n1 -> entry J q k' j = n1 -> False).
        { intros q k k' j Hq Hlt Hk' Hj X X'. rewrite EJ in X, X' by (auto; lia). unfold JF in X, X'.
          assert (Dn : forall a, @delta K _ a j = n1 -> a = j).
          { intros a Ha. destruct (Nat.eq_dec a j); auto. rewrite delta_neq in Ha by auto. exfalso. now apply One. }
          apply Dn in X, X'. assert (Hk : k < c * (h2 * w2)) by (rewrite <- D2e; lia). rewrite D2e in Hk'.
          destruct (divmod_lt k c (h2 * w2) Hk) as (A & B & Ek). destruct (divmod_lt k' c (h2 * w2) Hk') as (A' & B' & Ek').
          pose proof (F1 q _ _ Hq A B) as F. pose proof (F1 q _ _ Hq A' B') as F'.
          set (ch := k / (h2 * w2)) in *. set (ch' := k' / (h2 * w2)) in *. set (s0 := k mod (h2 * w2)) in *. set (s1 := k' mod (h2 * w2)) in *.
          assert (ch' = ch).
          { assert (C : forall a g, g < h1 * w1 -> (a * (h1 * w1) + g) / (h1 * w1) = a) by (intros a g Hg; now apply divmod_flat).
            transitivity (j / (h1 * w1)); [rewrite <- X'; symmetry; now apply C|rewrite <- X; now apply C]. }
          rewrite H in *. assert (Ef : f q ch s0 = f q ch s1) by lia.
          destruct (pool_double b c h1 w1 h2 w2 x y i) with (q := q) (ch := ch) (s := s0) (s' := s1) as (v & Wv & Sv & NV); auto; [lia|].
          assert (NV' : pool_vjp (Some i) x y v <> Ok (vJ b D2 D1 JF v)) by exact NV. apply NV'. specialize (HV (St [] None []) v Wv Sv). cbn [vjp ensure forward] in HV. rewrite E in HV. cbn [snd bind st_idx] in HV.
          rewrite (vJ_Jext _ _ _ _ _ v EQ). destruct (pool_vjp (Some i) x y v); cbn [some bind] in HV; [|discriminate]. congruence. }
        intros q k k' j Hq Hk Hk' Hj X X'. destruct (Nat.lt_trichotomy k k') as [L|[L|L]]; auto; exfalso; eauto.
    Qed.
  End M.
End PoolExact.
