(** Vectors of any number of columns in vjp. *)
From Coq Require Import String Ascii List Arith ZArith Lia Bool.
From Verif Require Import Scalar Sums Tensor TensorLemmas EinsumLemmas Conv Abstract Simple LinearLayer ConvLayer PoolLayer
  Module Spec Domain OpLemmas ReshapeLemmas Jac LeafSpec LeafSimple LeafAct TreeBase TreeVjp Leaves Trees StateCoh ValArg Width.
Import ListNotations.
Local Open Scope nat_scope.
Local Open Scope list_scope.

Section P.
  Context {K} `{CR : CRing K}.
  Notation T := (tensor K).

  Definition gives (b : nat) (o : option nat) (r : res T) : Prop :=
    match o with
    | Some k => exists t, r = Ok t /\ wf t /\ shape t = [b; k]
    | None => r = Raise RuntimeError \/ r = Raise AssertionError
    end.

  Ltac esize :=
    unfold einsum;
    match goal with |- context [parse_einsum ?s] =>
      let v := eval vm_compute in (parse_einsum s) in change (parse_einsum s) with v end;
    cbv beta iota; unfold sizes, rank;
    repeat match goal with H : shape ?t = _ |- context [shape ?t] => rewrite H end;
    repeat match goal with |- context [Nat.eqb (List.length ?a) (List.length ?b)] =>
      change (Nat.eqb (List.length a) (List.length b)) with true; cbv iota end;
    cbn [combine fold_left];
    repeat match goal with |- context [own_sizes ?l] =>
      let H := fresh in assert (H : own_sizes l = true) by (cbn -[Nat.eqb]; rewrite ?Nat.eqb_refl; reflexivity); rewrite H; clear H; cbv iota end;
    repeat first [rewrite add_size_new by reflexivity | rewrite add_size_same by reflexivity];
    cbn -[tab Nat.eqb operand].
  Lemma einsum_W (v W : T) b k o i : shape v = [b; k] -> shape W = [o; i] -> gives b (fits k o i) (einsum "bj,jk->bk" [v; W]).
  Proof.
    intros Sv SW. unfold fits, meets. esize.
    destruct (Nat.eqb_spec k o) as [E|E]; [|destruct (Nat.eqb_spec k 1) as [E1|E1]; [|destruct (Nat.eqb_spec o 1) as [E2|E2]]]; cbn -[tab Nat.eqb operand].
    1-3: eexists; split; [reflexivity|]; split; [apply wf_tab|reflexivity].
    now left.
  Qed.
  Lemma einsum_J (v J : T) b k o i : shape v = [b; k] -> shape J = [b; o; i] -> gives b (fits k o i) (einsum "bi,bij->bj" [v; J]).
  Proof.
    intros Sv SJ. unfold fits, meets. esize.
    destruct (Nat.eqb_spec k o) as [E|E]; [|destruct (Nat.eqb_spec k 1) as [E1|E1]; [|destruct (Nat.eqb_spec o 1) as [E2|E2]]]; cbn -[tab Nat.eqb operand].
    1-3: eexists; split; [reflexivity|]; split; [apply wf_tab|reflexivity].
    now left.
  Qed.
  Lemma einsum_D (v D : T) b k n : shape v = [b; k] -> shape D = [b; n] -> gives b (meets k n) (einsum "bi,bi->bi" [v; D]).
  Proof.
    intros Sv SJ. unfold meets. esize.
    destruct (Nat.eqb_spec k n) as [E|E]; [|destruct (Nat.eqb_spec k 1) as [E1|E1]; [|destruct (Nat.eqb_spec n 1) as [E2|E2]]]; cbn -[tab Nat.eqb operand].
    1-3: eexists; split; [reflexivity|]; split; [apply wf_tab|reflexivity].
    now left.
  Qed.
  Lemma add_gives (a r : T) b k n : shape a = [b; k] -> shape r = [b; n] -> gives b (meets k n) (tadd a r).
  Proof.
    intros Sa Sr. unfold tadd, bop, meets. rewrite Sa, Sr. cbn -[Nat.eqb tab]. rewrite Nat.eqb_refl.
    destruct (Nat.eqb k n); [|destruct (Nat.eqb k 1); [|destruct (Nat.eqb n 1)]]; cbn -[tab Nat.eqb].
    1-3: eexists; split; [reflexivity|]; split; [apply wf_tab|reflexivity].
    now left.
  Qed.

  Lemma noteq b k n : k <> n -> shape_eqb [b; k] [b; n] = false.
  Proof. intros N. unfold shape_eqb. destruct list_eq_dec; congruence. Qed.
  Lemma leaf_gives l s s' b (x y v : T) k : leaf_typed l s s' -> 0 < b -> wf x -> shape x = b :: s -> leaf_forward l x = Ok y ->
    wf v -> shape v = [b; k] -> exists r, leaf_vjp l x (Some y) v Input = some r /\ gives b (width (Leaf l) x k) r.
  Proof.
    intros Ty Hb Wx Sx Fy Wv Sv. assert (Px : per x = numel s) by (unfold per; now rewrite Sx).
    assert (Sy : shape y = b :: s') by (destruct (BF l s s' Ty b x Hb Wx Sx) as (y' & E & _ & S'); congruence).
    assert (Py : per y = numel s') by (unfold per; now rewrite Sy).
    assert (G : k = numel s' -> exists r, leaf_vjp l x (Some y) v Input = some r /\ gives b (equals k (per y) (per x)) r).
    { intros ->. destruct (BLv l s s' Ty b x y (Some y) Hb Wx Sx Fy (or_intror eq_refl) v Wv Sv) as [E _].
      eexists (Ok _). split; [exact E|]. unfold equals. rewrite Py, Nat.eqb_refl, Px. eexists. split; [reflexivity|]. split; [apply wf_tab|reflexivity]. }
    destruct l as [W bias|cfg W bias|a| |d|e|sn sd|c]; cbn [width].
    - destruct Ty as (_ & _ & Ty). destruct s as [|c1 [|]]; try contradiction. destruct s' as [|c2 [|]]; try contradiction. destruct Ty as (SW & _ & _).
      eexists. split; [reflexivity|]. rewrite SW, Px, numel_cons, numel_nil, Nat.mul_1_r. exact (einsum_W v W b k c2 c1 Sv SW).
    - rewrite fwd_Leaf, Fy. destruct (Nat.eq_dec k (numel s')) as [E|E]; [auto|].
      destruct Ty as (_ & _ & Ty). unfold conv_ok in Ty. destruct s as [|c1 [|h1 [|w1 [|]]]]; try contradiction. destruct s' as [|c2 [|h2 [|w2 [|]]]]; try contradiction.
      exists (Raise AssertionError). split.
      + cbn [leaf_vjp]. unfold conv_vjp, conv_val, unpack4. cbn [bind]. rewrite Sx. cbn [bind]. rewrite Sy. cbn [bind]. rewrite Sv.
        replace (shape_eqb [b; k] [b; c2 * h2 * w2]) with false; [reflexivity|]. symmetry. apply noteq. rewrite !numel_cons, numel_nil in E. lia.
      + unfold equals. rewrite Py. destruct (Nat.eqb_spec k (numel [c2; h2; w2])); [contradiction|now right].
    - destruct Ty as (_ & _ & ->). cbn [leaf_vjp]. unfold ad_vjp. injection Fy as <-. rewrite (act_jac_diag a b s x Hb Sx) by (now right). cbn [bind].
      eexists. split; [reflexivity|]. rewrite Px. now apply einsum_D.
    - exists (Ok v). split; [reflexivity|]. exists v. auto.
    - exists (Ok v). split; [reflexivity|]. exists v. auto.
    - rewrite fwd_Leaf, Fy. destruct Ty as (_ & _ & ->). cbn [leaf_vjp]. unfold aj_vjp. rewrite (l2_jac e b s x Hb Sx _ y Fy) by (now right). cbn [bind].
      eexists. split; [reflexivity|]. rewrite Px, Py. now apply einsum_J.
    - rewrite fwd_Leaf, Fy. destruct (Nat.eq_dec k (numel s')) as [E|E]; [auto|].
      destruct Ty as (_ & _ & _ & _ & Ty). destruct s as [|c1 [|h1 [|w1 [|]]]]; try contradiction. destruct s' as [|c2 [|h2 [|w2 [|]]]]; try contradiction. destruct Ty as (-> & _).
      exists (Raise AssertionError). split.
      + cbn [leaf_vjp]. unfold up_vjp, up_val, unpack4. cbn [bind]. rewrite Sx. cbn [bind]. rewrite Sy. cbn [bind]. rewrite Nat.eqb_refl. cbn [check]. rewrite Sv.
        replace (shape_eqb [b; k] [b; c1 * h2 * w2]) with false; [reflexivity|]. symmetry. apply noteq. rewrite !numel_cons, numel_nil in E. lia.
      + unfold equals. rewrite Py. destruct (Nat.eqb_spec k (numel [c1; h2; w2])); [contradiction|now right].
    - rewrite fwd_Leaf, Fy. destruct Ty as (_ & _ & Ty). destruct (Ty b x Hb Wx Sx) as (y' & J & E & _ & _ & WJ & SJ & EJ).
      assert (y' = y) by (cbn in Fy; congruence). subst y'. cbn [leaf_vjp]. unfold aj_vjp. rewrite (proj1 (EJ (Some y) (or_intror eq_refl))). cbn [bind].
      eexists. split; [reflexivity|]. rewrite Px, Py. now apply einsum_J.
  Qed.

  Definition gives_opt (b : nat) (o : option nat) (r : res (option T)) : Prop := exists r', r = some r' /\ gives b o r'.
  Lemma gives_cases b o r : gives b o r -> (exists k t, o = Some k /\ r = Ok t /\ wf t /\ shape t = [b; k]) \/ (o = None /\ (r = Raise RuntimeError \/ r = Raise AssertionError)).
  Proof. destruct o as [k|]; cbn; [intros (t & E & W & Sh); left; eauto 6|right; auto]. Qed.

  Lemma seq_gives ms s : (forall b fma k0 fm ks (x v : T) k, 0 < b -> wf x -> shape x = b :: s -> coh_seq coh ms ks fm x -> skipn k0 fma = fm -> wf v -> shape v = [b; k] ->
      exists r, seq_vjp_in vjp true fma ms ks k0 v = (ks, r) /\ gives b (seq_width width ms x k) r) ->
    forall b st (x val v : T) k, 0 < b -> wf x -> shape x = b :: s -> coh (Seq true ms) st x -> wf v -> shape v = [b; k] ->
      exists r, vjp (Seq true ms) st x (Some val) v Input = (st, r) /\ gives_opt b (width (Seq true ms) x k) r.
  Proof.
    intros IH b st x val v k Hb Wx Sx [_ C] Wv Sv.
    destruct (IH b (st_fm st) 0 (st_fm st) (st_kids st) x v k Hb Wx Sx C eq_refl Wv Sv) as (r & E & G).
    exists (some r). split; [|exists r; auto]. cbn [vjp wrt_ok ensure]. rewrite E. cbn. now rewrite st_eta.
  Qed.

  Lemma slice_gives (v : T) b k a e : shape v = [b; k] -> exists t, slice n0 1 a e v = Ok t /\ wf t /\ shape t = [b; Nat.min e k - Nat.min a k].
  Proof. intros Sv. unfold slice, rank, dim. rewrite Sv. cbn -[tab Nat.min]. eexists. split; [reflexivity|]. split; [apply wf_tab|reflexivity]. Qed.

  Lemma tree_gives :
    (forall m s s', typed m s s' -> forall b st (x y v : T) k, 0 < b -> wf x -> shape x = b :: s ->
       fwd m x = Ok y -> coh m st x -> wf v -> shape v = [b; k] -> exists r, vjp m st x (Some y) v Input = (st, r) /\ gives_opt b (width m x k) r) /\
    (forall ms s s', typed_seq ms s s' -> forall b fma k0 fm ks (x v : T) k, 0 < b -> wf x -> shape x = b :: s ->
       coh_seq coh ms ks fm x -> skipn k0 fma = fm -> wf v -> shape v = [b; k] ->
       exists r, seq_vjp_in vjp true fma ms ks k0 v = (ks, r) /\ gives b (seq_width width ms x k) r).
  Proof.
    apply typed_both.
    - intros l s s' Ty b st x y v k Hb Wx Sx Fy _ Wv Sv. rewrite fwd_Leaf in Fy.
      destruct (leaf_gives l s s' b x y v k Ty Hb Wx Sx Fy Wv Sv) as (r & E & G). exists (some r). cbn [vjp]. rewrite E. split; [reflexivity|]. exists r. auto.
    - intros cfg s s' Ty b st x y v k Hb Wx Sx Fy (y' & i & E & Ei) Wv Sv. pose proof Fy as Fy'. rewrite fwd_Pool, E in Fy. injection Fy as ->.
      destruct (BPF cfg s s' Ty b x Hb Wx Sx) as (y' & i' & E' & _ & Sy). rewrite E in E'. injection E' as <- <-.
      assert (Px : per x = numel s) by (unfold per; now rewrite Sx). assert (Py : per y = numel s') by (unfold per; now rewrite Sy).
      cbn [vjp ensure width]. rewrite Fy', Ei. cbn [bind]. unfold equals. rewrite Py. eexists. split; [reflexivity|].
      eexists. split; [reflexivity|]. destruct (Nat.eqb_spec k (numel s')) as [->|Nk].
      + rewrite (BPv cfg s s' Ty b x y i v Hb Wx Sx E Wv Sv), Px. eexists. split; [reflexivity|]. split; [apply wf_tab|reflexivity].
      + right. destruct Ty as (_ & _ & Ty). destruct s as [|c1 [|h1 [|w1 [|]]]]; try contradiction. destruct s' as [|c2 [|h2 [|w2 [|]]]]; try contradiction. destruct Ty as (-> & _).
        unfold pool_vjp, unpack4. rewrite Sx. cbn [bind]. rewrite Sy. cbn [bind]. rewrite Nat.eqb_refl. cbn [check]. rewrite Sv, noteq; [reflexivity|].
        rewrite !numel_cons, numel_nil in Nk. lia.
    - intros ms s s' Ty IH b st x y v k Hb Wx Sx Fy C Wv Sv. now apply (seq_gives ms s).
    - intros ms c c' r Ty IH b st x y v k Hb Wx Sx Fy (Ck & C) Wv Sv.
      destruct (typed_fwd_y BF BPF _ _ _ b x y (ty_skip ms c c' r Ty) Hb Wx Sx Fy) as [Wy Sy].
      assert (Px : per x = numel (c :: r)) by (unfold per; now rewrite Sx). set (l1 := numel (c :: r)) in *.
      destruct (slice_from_any y l1) as [vy Ey]; [unfold rank; rewrite Sy; cbn; lia|].
      destruct (slice_gives v b k l1 k Sv) as (vt & Evt & Wvt & Svt). rewrite Nat.min_id in Svt. replace (k - Nat.min l1 k) with (k - l1) in Svt by lia.
      assert (Evt' : slice_from n0 1 l1 v = Ok vt) by (unfold slice_from, dim; rewrite Sv; exact Evt).
      destruct (slice_gives v b k 0 l1 Sv) as (va & Eva & Wva & Sva). replace (Nat.min l1 k - Nat.min 0 k) with (Nat.min k l1) in Sva by lia.
      assert (Est : set_kid st (st_kid st) = st). { unfold set_kid. rewrite <- Ck. apply st_eta. }
      destruct (seq_gives ms (c :: r) IH b (st_kid st) x vy vt (k - l1) Hb Wx Sx C Wvt Svt) as (q & Eq & q' & -> & G).
      assert (Wd : width (Skip (Seq true ms)) x k = match width (Seq true ms) x (k - l1) with Some r => meets (Nat.min k l1) r | None => None end) by (cbn [width]; now rewrite Px).
      rewrite Wd. clear Wd. eexists. split.
      + cbn [vjp] in Eq |- *. rewrite (numel0_ok x b (c :: r) Hb Sx). fold l1. cbn [bind val_tail]. rewrite Ey. cbn [some bind]. rewrite Evt'. cbn [bind].
        rewrite Eq, Est, Eva. reflexivity.
      + destruct (gives_cases _ _ _ G) as [(k' & t & -> & -> & Wt & St)|[-> [-> | ->]]]; cbn [bind need some].
        * eexists. split; [reflexivity|]. now apply add_gives.
        * exists (Raise RuntimeError). split; [reflexivity|now left].
        * exists (Raise AssertionError). split; [reflexivity|now right].
    - intros s Hs b fma k0 fm ks x v k Hb Wx Sx [-> _] _ Wv Sv. exists (Ok v). split; [reflexivity|]. exists v. auto.
    - intros m ms s s1 s2 Tm IHm Ts IHs b fma k0 fm ks x v k Hb Wx Sx (st & ks' & fm' & y & -> & -> & Fy & Cm & Cs) Sk Wv Sv.
      destruct (typed_fwd_y BF BPF _ _ _ b x y Tm Hb Wx Sx Fy) as [Wy Sy].
      destruct (skipn_nth _ _ _ _ Sk) as [_ Sk']. destruct (coh_seq_head _ _ _ _ _ Cs) as [r0 ->].
      destruct (IHs b fma (S k0) (y :: r0) ks' y v k Hb Wy Sy Cs Sk' Wv Sv) as (r & E & G).
      cbn [seq_vjp_in kid_split seq_width]. rewrite E, Fy.
      destruct (gives_cases _ _ _ G) as [(k' & t & -> & -> & Wt & St)|[-> Er]].
      + cbn [bind]. rewrite (fmap2_ok fma k0 x y r0 Sk). cbn [bind].
        destruct (IHm b st x y t k' Hb Wx Sx Fy Cm Wt St) as (r & E1 & r' & -> & G1). rewrite E1. exists r'. split; [|exact G1]. f_equal. now destruct r'.
      + destruct Er as [-> | ->]; cbn [bind]; eexists; (split; [reflexivity|]); cbn; auto.
  Qed.

  Lemma vjp_width m s s' b (x v : T) k h : typed m s s' -> 0 < b -> wf x -> shape x = b :: s -> wf v -> shape v = [b; k] ->
    match width m x k with
    | Some k' => exists t, snd (vjp m h x None v Input) = Ok (Some t) /\ wf t /\ shape t = [b; k']
    | None => snd (vjp m h x None v Input) = Raise RuntimeError \/ snd (vjp m h x None v Input) = Raise AssertionError
    end.
  Proof.
    intros Ty Hb Wx Sx Wv Sv. destruct (fwd_total m s s' b x Ty Hb Wx Sx) as (y & Fy & _).
    assert (C : coh m (fst (forward m h x)) x) by (eapply (typed_coh BF BPF); eauto).
    destruct (proj1 tree_gives m s s' Ty b _ x y v k Hb Wx Sx Fy C Wv Sv) as (r & E & r' & -> & G).
    pose proof (vjp_val m s s' Input Ty ltac:(discriminate) v b x y h _ Hb Wx Sx Fy C) as V. cbn beta in V. rewrite E in V. cbn [snd] in V. rewrite V.
    destruct (gives_cases _ _ _ G) as [(k' & t & -> & -> & Wt & St)|[-> [-> | ->]]]; cbn; eauto.
  Qed.

  Lemma fits_none k n r : k <> n -> k <> 1 -> n <> 1 -> fits k n r = None.
  Proof. intros A B C. unfold fits, meets. destruct (Nat.eqb_spec k n), (Nat.eqb_spec k 1), (Nat.eqb_spec n 1); try lia. reflexivity. Qed.
  Lemma narrow :
    (forall m s s', typed m s s' -> forall b (x : T) k, 0 < b -> wf x -> shape x = b :: s -> no_single m x -> k <> 1 -> k <> numel s' ->
       width m x k = None \/ (reshapes m /\ width m x k = Some k /\ numel s = numel s')) /\
    (forall ms s s', typed_seq ms s s' -> forall b (x : T) k, 0 < b -> wf x -> shape x = b :: s -> plain_seq no_single ms x -> k <> 1 -> k <> numel s' ->
       seq_width width ms x k = None \/ (reshapes (Seq true ms) /\ seq_width width ms x k = Some k /\ numel s = numel s')).
  Proof.
    apply typed_both.
    - intros l s s' Ty b x k Hb Wx Sx Ns K1 Ks. destruct (BF l s s' Ty b x Hb Wx Sx) as (y & Fy & _ & Sy).
      specialize (Ns y Fy). assert (Py : per y = numel s') by (unfold per; now rewrite Sy). rewrite Py in Ns. assert (Px : per x = numel s) by (unfold per; now rewrite Sx).
      assert (Q : equals k (numel s') (per x) = None) by (unfold equals; destruct (Nat.eqb_spec k (numel s')); [contradiction|reflexivity]).
      pose proof (fits_none k (numel s') (per x) Ks K1 Ns) as Ft.
      destruct l as [W bias|cfg W bias|a| |d|e|sn sd|c]; cbn [width reshapes]; rewrite ?fwd_Leaf, ?Fy, ?Py; auto.
      + left. destruct Ty as (_ & _ & Ty). destruct s as [|c1 [|]]; try contradiction. destruct s' as [|c2 [|]]; try contradiction. destruct Ty as (SW & _ & _). rewrite SW.
        cbn [nth]. rewrite numel_cons, numel_nil, Nat.mul_1_r in Ft. exact Ft.
      + left. destruct Ty as (_ & _ & ->). rewrite Px. unfold fits in Ft. destruct meets; [discriminate|reflexivity].
      + right. destruct Ty as (_ & _ & ->). repeat split. rewrite numel_cons, numel_nil. lia.
      + right. destruct Ty as (_ & _ & _ & Ed). repeat split. congruence.
    - intros cfg s s' Ty b x k Hb Wx Sx Ns K1 Ks. destruct (BPF cfg s s' Ty b x Hb Wx Sx) as (y & i & E & _ & Sy).
      left. cbn [width]. rewrite fwd_Pool, E. cbn [bind fst]. unfold per at 1. rewrite Sy. cbn [tl]. unfold equals. destruct (Nat.eqb_spec k (numel s')); [contradiction|reflexivity].
    - intros ms s s' Ty IH b x k Hb Wx Sx Ns K1 Ks. exact (IH b x k Hb Wx Sx Ns K1 Ks).
    - intros ms c c' r Ty IH b x k Hb Wx Sx Ns K1 Ks. destruct Ns.
    - intros s Hs b x k Hb Wx Sx Ns K1 Ks. right. repeat split.
    - intros m ms s s1 s2 Tm IHm Ts IHs b x k Hb Wx Sx [Nm Nms] K1 Ks. destruct (fwd_total m s s1 b x Tm Hb Wx Sx) as (y & Fy & Wy & Sy). cbn [seq_width]. rewrite Fy.
      destruct (IHs b y k Hb Wy Sy (Nms y Fy) K1 Ks) as [-> |(R & -> & En)]; [auto|]. rewrite <- En in Ks.
      destruct (IHm b x k Hb Wx Sx Nm K1 Ks) as [-> |(R' & -> & En')]; [auto|]. right. split; [cbn in *; auto|]. split; [reflexivity|congruence].
  Qed.
  Lemma vjp_rejects m s s' b (x v : T) k h : typed m s s' -> 0 < b -> wf x -> shape x = b :: s -> wf v -> shape v = [b; k] ->
    no_single m x -> ~ reshapes m -> k <> 1 -> k <> numel s' -> snd (vjp m h x None v Input) = Raise RuntimeError \/ snd (vjp m h x None v Input) = Raise AssertionError.
  Proof.
    intros Ty Hb Wx Sx Wv Sv Ns Nr K1 Ks. pose proof (vjp_width m s s' b x v k h Ty Hb Wx Sx Wv Sv) as V.
    destruct (proj1 narrow m s s' Ty b x k Hb Wx Sx Ns K1 Ks) as [E|(R & _)]; [now rewrite E in V|contradiction].
  Qed.

  (** full matrices of which only the diagonal is wanted *)
  Lemma own_fails (l : label) n n' b : n <> n' -> own_sizes [("b"%char, b); (l, n); (l, n')] = false.
  Proof. intros Hn. cbn -[Nat.eqb]. rewrite Ascii.eqb_refl. rewrite (proj2 (Nat.eqb_neq n n') Hn). rewrite !andb_false_r. reflexivity. Qed.
  Lemma diag_raises (M : T) b n n' : shape M = [b; n; n'] -> n <> n' -> einsum "bii->bi" [M] = Raise RuntimeError.
  Proof.
    intros SM Hn. unfold einsum. change (parse_einsum "bii->bi") with (Some ([["b"%char; "i"%char; "i"%char]], ["b"%char; "i"%char])).
    cbv beta iota. unfold sizes, rank. rewrite SM. cbn [combine length Nat.eqb]. match goal with |- context [own_sizes ?l] => replace (own_sizes l) with false by (symmetry; exact (own_fails "i"%char n n' b Hn)) end. reflexivity.
  Qed.
  Lemma diag3_raises (A B M : T) b k n n' : shape A = [b; k] -> shape M = [b; n; n'] -> n <> n' -> einsum "bi,bii,bi->bi" [A; M; B] = Raise RuntimeError.
  Proof.
    intros SA SM Hn. unfold einsum. match goal with |- context [parse_einsum ?s] => let v := eval vm_compute in (parse_einsum s) in change (parse_einsum s) with v end.
    cbv beta iota. unfold sizes at 1, rank. rewrite SA. cbn [combine length Nat.eqb].
    match goal with |- context [own_sizes ?l] => change (own_sizes l) with true end. cbv iota. rewrite SM. cbn [combine length Nat.eqb]. match goal with |- context [own_sizes ?l] => replace (own_sizes l) with false by (symmetry; exact (own_fails "i"%char n n' b Hn)) end. reflexivity.
  Qed.
  Definition diagonal_layer (l : leaf K) : Prop := match l with Act _ | Flatten | Reshape _ => True | _ => False end.
  Lemma nonsquare_raises l s s' b (x y M : T) n n' h db : leaf_typed l s s' -> diagonal_layer l -> 0 < b -> wf x -> shape x = b :: s -> fwd (Leaf l) x = Ok y ->
    shape M = [b; n; n'] -> n <> n' ->
    snd (jTmjp (Leaf l) h x (Some y) (VT M) Input false true db) = Raise RuntimeError /\
    snd (jmjTp (Leaf l) h x (Some y) (VT M) Input false true db) = Raise RuntimeError.
  Proof.
    intros Ty D Hb Wx Sx Fy SM Hn. rewrite fwd_Leaf in Fy. pose proof (diag_raises M b n n' SM Hn) as Dr.
    destruct l as [W bias|cfg W bias|a| |d|e|sn sd|c]; try contradiction; cbn [jTmjp jmjTp leaf_jTmjp leaf_jmjTp to_opt bind snd].
    - injection Fy as <-. unfold ad_jTmjp, ad_jmjTp, size. rewrite Sx. cbn [nth_error bind]. rewrite (act_jac_diag a b s x Hb Sx) by (now right). cbn [bind ad_modes].
      rewrite !(fun A B S => diag3_raises A B M b (numel s) n n' S SM Hn) by reflexivity. auto.
    - unfold id_jTmjp, id_jmjTp. cbn [bind id_modes]. rewrite Dr. auto.
    - unfold id_jTmjp, id_jmjTp. cbn [bind id_modes]. rewrite Dr. auto.
  Qed.
End P.
