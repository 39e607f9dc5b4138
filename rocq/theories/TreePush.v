(** J M J^T of a module tree (jmjTp without diag_backprop). *)
From Coq Require Import String Ascii List Arith ZArith Lia Bool.
From Verif Require Import Scalar Sums Tensor TensorLemmas EinsumLemmas Conv Abstract Simple LinearLayer ConvLayer PoolLayer
  Module Spec OpLemmas ReshapeLemmas Jac LeafSpec TreeBase TreeVjp StateCoh TreeMjp TreePull TreeJvp TreeJmp.
Import ListNotations.
Local Open Scope nat_scope.
Local Open Scope list_scope.

Section Push.
  Context {K} `{CR : CRing K}.
  Add Ring Kring : (cring : ring_theory n0 n1 nadd nmul nsub nopp (@eq K)).
  Notation gt := (get (@n0 K _)).
  Notation T := (tensor K).

  Lemma leaf_at_le : forall (m : module K) p, leaf_at m p <= p.
  Proof.
    refine (module_ind2 (fun m => forall p, leaf_at m p <= p) (fun ms => forall p, seq_leaf_at leaf_at ms p <= p) _ _ _ _ _ _); cbn [leaf_at seq_leaf_at]; intros; auto; try lia.
    destruct (Nat.ltb_spec p (n_params m)) as [Hp|Hp]; auto. match goal with H : forall p, seq_leaf_at _ _ p <= p |- _ => specialize (H (p - n_params m)) end. lia.
  Qed.
  (** a whole tensor is also a representation of each block *)
  Lemma rep_block fd b R : forall (m : module K) off, n_params m <> 0 -> rep fd b R m off (VT (block fd b (n_params m) off R)).
  Proof.
    refine (module_ind2 (fun m => forall off, n_params m <> 0 -> rep fd b R m off (VT (block fd b (n_params m) off R))) (fun _ => True) _ _ _ _ I (fun _ _ _ _ => I)).
    - intros; constructor.
    - cbn; intros; lia.
    - intros; constructor.
    - intros F IH off Hn. constructor. now apply IH.
  Qed.
  Lemma seq_blocks_ok fd b R off : forall (ms : list (module K)) p N t, p + seq_np ms <= N ->
    t = block fd b N off R -> exists vs, seq_blocks ms t p fd = Ok vs /\ reps fd b R ms (off + p) vs.
  Proof.
    induction ms as [|m ms IH]; intros p N t Hp ->.
    - exists []. split; [reflexivity|constructor].
    - unfold seq_np in Hp; cbn [fold_right] in Hp; fold (seq_np ms) in Hp. cbn [seq_blocks].
      destruct (Nat.eqb_spec (n_params m) 0) as [Z|Z].
      + destruct (IH p N _ ltac:(lia) eq_refl) as (vs & E & Rp). exists vs. split; auto. now constructor.
      + destruct (IH (p + n_params m) N _ ltac:(lia) eq_refl) as (vs & E & Rp).
        exists (VT (block fd b (n_params m) (off + p) R) :: vs). split.
        * destruct fd.
          -- rewrite slice1_2 with (b := b) (n := N) by (first [reflexivity|lia]). cbn [bind]. rewrite E. cbn [bind]. do 3 f_equal.
             unfold block, present. apply tab2_ext. intros q j Hq Hj. rewrite get_tab2 by lia. f_equal; lia.
          -- rewrite slice1_3 with (b := b) (n := N) (p := N) by (first [reflexivity|lia]). cbn [bind].
             rewrite slice2_3 with (b := b) (n := n_params m) (p := N) by (first [reflexivity|lia]). cbn [bind]. rewrite E. cbn [bind]. do 3 f_equal.
             unfold block, present. apply tab3_ext. intros q i j Hq Hi Hj. rewrite get_tab3 by lia. rewrite get_tab3 by lia. f_equal; lia.
        * apply reps_cons; auto; [now apply rep_block|now rewrite <- Nat.add_assoc].
  Qed.

  Variable BF : @base_fwd K _.
  Variable BPF : @base_pool_fwd K _.
  Variable BJ : forall l s s', leaf_typed l s s' -> leaf_fwdable l -> @leaf_jmp_spec K _ l s s'.
  Variable BL : forall l s s', leaf_typed l s s' -> leaf_fwdable l -> @leaf_push_spec K _ l s s'.

  (** effective metric of the parameters of a module *)
  Definition eff (la : nat -> nat) (fd : bool) (R : nat -> nat -> nat -> K) (off q p p' : nat) : K :=
    same_layer la (dpart fd (fun q i k => R q (off + i) (off + k))) q p p'.

  Definition push_ok (m : module K) s s' (st : st K) b x val fd td : Prop :=
    (forall M, wf M -> shape M = metric_shape fd b (numel s) ->
      snd (jmjTp m st x val (VT M) Input fd td false) = Ok (VT (push b (numel s') (numel s) (JX m x) fd td M))) /\
    (n_params m <> 0 -> forall R off v, rep fd b R m off v ->
      snd (jmjTp m st x val v Weight fd td false) =
      Ok (VT (present td b (numel s') (push_at (n_params m) (JW m x) (eff (leaf_at m) fd R off))))).

  Definition accv (acc : value K) (n : nat) (b : nat) (A : nat -> nat -> nat -> K) : Prop :=
    (acc = VNone /\ forall q i k, A q i k = n0) \/ acc = VT (tab3 b n n A).

  Definition seq_push_P (ms : list (module K)) s s' : Prop := fwdable_seq ms -> nonempty_seq ms ->
    forall b fma k fm ks x fd td, 0 < b -> wf x -> shape x = b :: s -> coh_seq coh ms ks fm x -> skipn k fma = fm ->
    (forall M, wf M -> shape M = metric_shape (if k =? 0 then fd else false) b (numel s) -> ms <> [] ->
       snd (seq_jmjTp_in jmjTp true fma ms ks k (VT M) fd td false) =
       Ok (VT (push b (numel s') (numel s) (seq_JX JX ms x) (if k =? 0 then fd else false) td M))) /\
    (forall R off bs acc A, reps fd b R ms off bs -> accv acc (numel s) b A -> ms <> [] ->
       snd (seq_jmjTp_w jmjTp true fma ms ks k bs acc fd td false) =
       Ok (if match acc with VNone => seq_np ms =? 0 | _ => false end then VNone else
         VT (present td b (numel s') (fun q i k => nadd (push_at (numel s) (seq_JX JX ms x) A q i k)
            (push_at (seq_np ms) (seq_JW JW ms x) (eff (seq_leaf_at leaf_at ms) fd R off) q i k))))).

  Lemma push_at_0 n J A q i k : (forall q i k, A q i k = n0) -> push_at n J A q i k = @n0 K _.
  Proof. intros E. unfold push_at. apply bsum_0. intros j Hj. apply bsum_0. intros l Hl. rewrite E. ring. Qed.

  Lemma tree_push_seq_body ms s s' : seq_push_P ms s s' -> typed_seq ms s s' -> fwdable_seq ms -> nonempty_seq ms -> ms <> [] ->
    forall b st x val fd td, 0 < b -> wf x -> shape x = b :: s -> coh (Seq true ms) st x ->
    push_ok (Seq true ms) s s' st b x (Some val) fd td.
  Proof.
    intros IH Ty Fb Ne Nn b st x val fd td Hb Wx Sx [_ C].
    destruct (IH Fb Ne b (st_fm st) 0 (st_fm st) (st_kids st) x fd td Hb Wx Sx C eq_refl) as [I1 I2]. cbn [Nat.eqb] in I1, I2.
    split.
    - intros M WM SM. specialize (I1 M WM SM Nn). cbn [jmjTp db_ok ensure negb orb JX]. destruct seq_jmjTp_in. exact I1.
    - intros Hn R off v Rp. assert (Hs : exists bs, match v with VL l => Ok l | VT t => seq_blocks ms t 0 fd | VNone => Raise TypeError end = Ok bs /\ reps fd b R ms off bs).
      { inversion Rp; subst.
        - destruct (seq_blocks_ok fd b R off ms 0 (seq_np ms) _ (le_n _) eq_refl) as (vs & E & Rs). rewrite Nat.add_0_r in Rs. eauto.
        - eauto. }
      destruct Hs as (bs & Eb & Rs). specialize (I2 R off bs VNone (fun _ _ _ => n0) Rs (or_introl (conj eq_refl (fun _ _ _ => eq_refl))) Nn).
      cbn [jmjTp db_ok ensure negb orb JW].
      destruct (Nat.eqb_spec (seq_np ms) 0); [exfalso; apply Hn; assumption|].
      assert (Ev : (('(mt, fd0) <- match v with VNone => b0 <- size 0 x ;; Ok (VT (ones [b0; n_params (Seq true ms)]), true) | _ => Ok (v, fd) end ;;
                    bs0 <- match mt with VNone => Raise TypeError | VT t => seq_blocks ms t 0 fd0 | VL l => Ok l end ;; Ok (bs0, fd0)) = Ok (bs, fd))).
      { destruct v; [discriminate Eb| |]; cbn [bind]; [now rewrite Eb|]. injection Eb as ->. reflexivity. }
      rewrite Ev. destruct seq_jmjTp_w as [ks r]. cbn [snd] in *. rewrite I2. do 2 f_equal. apply present_ext. intros q i k Hq Hi Hk.
      rewrite push_at_0 by auto. match goal with |- nadd n0 ?a = _ => transitivity a; [ring|reflexivity] end.
  Qed.

  (** J = [I; JF] *)
  Lemma push_skip_11 l1 n JF (M : nat -> nat -> nat -> K) q i k : i < n -> k < n -> l1 = n ->
    push_at n (fun q i j => if i <? l1 then delta i j else JF q (i - l1) j) M q i k = M q i k.
  Proof.
    intros Hi Hk ->. unfold push_at. destruct (Nat.ltb_spec i n); [|lia]. destruct (Nat.ltb_spec k n); [|lia].
    rewrite (bsum_ext n _ (fun j => nmul (delta i j) (M q j k))).
    - now rewrite bsum_delta_l.
    - intros j Hj. rewrite (bsum_ext n _ (fun l => nmul (delta k l) (nmul (delta i j) (M q j l)))) by (intros; ring). now rewrite bsum_delta_l.
  Qed.
  Lemma push_skip_12 l1 n JF (M : nat -> nat -> nat -> K) q i k : i < n -> n <= k -> l1 = n ->
    push_at n (fun q i j => if i <? l1 then delta i j else JF q (i - l1) j) M q i k = bsum n (fun l => nmul (M q i l) (JF q (k - n) l)).
  Proof.
    intros Hi Hk ->. unfold push_at. destruct (Nat.ltb_spec i n); [|lia]. destruct (Nat.ltb_spec k n); [lia|].
    rewrite (bsum_ext n _ (fun j => nmul (delta i j) (bsum n (fun l => nmul (M q j l) (JF q (k - n) l))))).
    - now rewrite bsum_delta_l.
    - intros j Hj. rewrite <- bsum_mul_l. apply bsum_ext. intros; ring.
  Qed.
  Lemma push_skip_21 l1 n JF (M : nat -> nat -> nat -> K) q i k : n <= i -> k < n -> l1 = n ->
    push_at n (fun q i j => if i <? l1 then delta i j else JF q (i - l1) j) M q i k = bsum n (fun j => nmul (JF q (i - n) j) (M q j k)).
  Proof.
    intros Hi Hk ->. unfold push_at. destruct (Nat.ltb_spec i n); [lia|]. destruct (Nat.ltb_spec k n); [|lia].
    apply bsum_ext. intros j Hj. rewrite (bsum_ext n _ (fun l => nmul (delta k l) (nmul (JF q (i - n) j) (M q j l)))) by (intros; ring). now rewrite bsum_delta_l.
  Qed.
  Lemma push_skip_22 l1 n JF (M : nat -> nat -> nat -> K) q i k : n <= i -> n <= k -> l1 = n ->
    push_at n (fun q i j => if i <? l1 then delta i j else JF q (i - l1) j) M q i k = push_at n JF M q (i - n) (k - n).
  Proof.
    intros Hi Hk ->. unfold push_at. destruct (Nat.ltb_spec i n); [lia|]. destruct (Nat.ltb_spec k n); [lia|]. reflexivity.
  Qed.
  (** J = [0; JF] *)
  Lemma push_skip_w l1 n JF (M : nat -> nat -> nat -> K) q i k :
    push_at n (fun q i j => if i <? l1 then n0 else JF q (i - l1) j) M q i k =
    if (l1 <=? i) && (l1 <=? k) then push_at n JF M q (i - l1) (k - l1) else n0.
  Proof.
    unfold push_at. destruct (Nat.ltb_spec i l1); destruct (Nat.leb_spec l1 i); try lia; cbn [andb].
    - apply bsum_0. intros. apply bsum_0. intros. ring.
    - destruct (Nat.ltb_spec k l1); destruct (Nat.leb_spec l1 k); try lia; [|reflexivity].
      apply bsum_0. intros. apply bsum_0. intros. ring.
  Qed.
  Lemma cat22 b l1 l2 f11 f12 f21 f22 :
    (a <- cat n0 2 [@tab3 K b l1 l1 f11; tab3 b l1 l2 f12] ;; c <- cat n0 2 [tab3 b l2 l1 f21; tab3 b l2 l2 f22] ;;
     r <- cat n0 1 [a; c] ;; Ok (VT r)) = Ok (VT (tab3 b (l1 + l2) (l1 + l2) (fun q i k => if i <? l1 then (if k <? l1 then f11 q i k else f12 q i (k - l1))
       else if k <? l1 then f21 q (i - l1) k else f22 q (i - l1) (k - l1)))).
  Proof.
    rewrite cat2_3 with (b := b) (p := l1) (n := l1) (m := l2) by reflexivity. cbn [bind].
    rewrite cat2_3 with (b := b) (p := l2) (n := l1) (m := l2) by reflexivity. cbn [bind].
    rewrite cat1_3 with (b := b) (n := l1) (m := l2) (p := l1 + l2) by reflexivity. cbn [bind]. do 2 f_equal.
    apply tab3_ext. intros q i k Hq Hi Hk. destruct (Nat.ltb_spec i l1).
    - rewrite get_tab3 by lia. destruct (Nat.ltb_spec k l1); rewrite get_tab3 by lia; reflexivity.
    - rewrite get_tab3 by lia. destruct (Nat.ltb_spec k l1); rewrite get_tab3 by lia; reflexivity.
  Qed.

  Lemma rep_skip_inv fd b R F off v : rep (K := K) fd b R (Skip F) off v -> rep fd b R F off v.
  Proof. inversion 1; auto. Qed.
  Lemma tree_push_skip ms c c' r b st x y fd td : typed_seq ms (c :: r) (c' :: r) -> fwdable_seq ms ->
    0 < b -> wf x -> shape x = b :: c :: r -> fwd (Skip (Seq true ms)) x = Ok y -> coh (Skip (Seq true ms)) st x ->
    (forall st val, coh (Seq true ms) st x -> push_ok (Seq true ms) (c :: r) (c' :: r) st b x (Some val) fd td) ->
    push_ok (Skip (Seq true ms)) (c :: r) (c + c' :: r) st b x (Some y) fd td.
  Proof.
    intros Ty Fb Hb Wx Sx Fy (Ck & C) I0.
    destruct (typed_pos_s _ _ _ Ty) as [P1 P2].
    destruct (typed_fwd_y BF BPF _ _ _ b x y (ty_skip ms c c' r Ty) Hb Wx Sx Fy) as [Wy Sy].
    assert (N' : numel (c + c' :: r) = numel (c :: r) + numel (c' :: r)) by (numels; ring).
    assert (Nx : numel0 x = Ok (numel (c :: r))) by (now apply (numel0_ok x b)).
    assert (Ny : numel0 y = Ok (numel (c + c' :: r))) by (now apply (numel0_ok y b)).
    assert (Es : size 0 x = Ok b) by (unfold size; now rewrite Sx).
    destruct (slice_from_any y (numel (c :: r))) as [t Ey]; [unfold rank; rewrite Sy; cbn; lia|].
    destruct (I0 (st_kid st) t C) as [I1 I2].
    assert (Jm : forall cc st M, 0 < cc -> wf M -> shape M = [b; numel (c :: r); cc] ->
      snd (jmp (Seq true ms) st x (Some t) (Some M) Input) = Ok (Some (JM b (numel (c' :: r)) (numel (c :: r)) cc (JX (Seq true ms) x) M))).
    { intros cc st1 M Hc WM SM. apply (tree_jmp_seq_body cc ms (c :: r) (c' :: r) (proj2 (tree_jmp BF BPF BJ cc Hc) ms _ _ Ty) Fb b st1 x (Some t) Hb Wx Sx); auto. }
    set (l1 := numel (c :: r)) in *. set (l2 := numel (c' :: r)) in *. unfold push_ok. rewrite N' in Ny |- *. fold l1 in Ny |- *.
    assert (Ps : per x = l1) by (unfold per; now rewrite Sx).
    remember (Seq true ms) as F.
    assert (JXe : JX (Skip F) x = fun q i j => if i <? l1 then delta i j else JX F x q (i - l1) j) by (cbn [JX]; now rewrite Ps).
    assert (JWe : JW (Skip F) x = fun q i j => if i <? l1 then n0 else JW F x q (i - l1) j) by (cbn [JW]; now rewrite Ps).
    rewrite JXe, JWe.
    split.
    - intros M WM SM. specialize (I1 M WM SM). cbn [jmjTp db_ok negb orb ensure bind]. rewrite Es, Nx, Ny. cbn [bind]. rewrite Ey. cbn [bind].
      destruct (jmjTp F (st_kid st) x (Some t) (VT M) Input fd td false) as [k1 r1]. cbn [snd] in I1. subst r1.
      destruct td.
      + cbn [snd to_tensor bind]. assert (Ea : exists a, (if fd then Ok M else einsum "bii->bi"%string [M]) = Ok a /\ shape a = [b; l1] /\
            forall q i, q < b -> i < l1 -> gt a [q; i] = metric fd M q i i).
        { destruct fd.
          - exists M. split; auto. split; auto. intros. unfold metric. now rewrite Nat.eqb_refl.
          - rewrite es_bii_to_bi with (n_b := b) (n_i := l1) by auto. eexists. split; [reflexivity|]. split; [reflexivity|].
            intros. rewrite get_tab2 by auto. reflexivity. }
        destruct Ea as (a & -> & Sa & Ga). cbn [bind]. unfold push, present.
        rewrite cat1_2 with (b := b) (n := l1) (m := l2) by (auto; reflexivity). cbn [bind]. do 2 f_equal. apply tab2_ext. intros q i Hq Hi.
        destruct (Nat.ltb_spec i l1).
        * rewrite Ga by auto. now rewrite push_skip_11.
        * rewrite get_tab2 by lia. now rewrite push_skip_22.
      + cbn [to_tensor bind]. assert (Em : exists mt, (if fd then diag_embed M else Ok M) = Ok mt /\ wf mt /\ shape mt = [b; l1; l1] /\
            forall q i k, q < b -> i < l1 -> k < l1 -> gt mt [q; i; k] = metric fd M q i k).
        { destruct fd.
          - rewrite diag_embed2 with (b := b) (n := l1) by auto. eexists. split; [reflexivity|]. split; [apply wf_tab|]. split; [reflexivity|].
            intros. now rewrite get_tab3.
          - exists M. auto. }
        destruct Em as (mt & -> & Wm & Sm & Gm). cbn [st_kid set_kid st_kids hd].
        pose proof (fun st => Jm l1 st mt P1 Wm Sm) as Jm1. specialize (Jm1 k1). destruct (jmp F k1 x (Some t) (Some mt) Input) as [k2 r2].
        cbn [snd] in Jm1. subst r2. cbn [bind need].
        assert (Emt : mt = tab3 b l1 l1 (metric fd M)) by (apply (tab3_eq n0); auto).
        destruct fd.
        * cbn [snd]. rewrite transpose12_ok with (b := b) (n := l2) (m := l1) by reflexivity. cbn [bind].
          unfold push, present. rewrite Emt at 1. unfold JM at 2.
          rewrite (cat22 b l1 l2). do 2 f_equal. apply tab3_ext. intros q i k Hq Hi Hk.
          destruct (Nat.ltb_spec i l1); destruct (Nat.ltb_spec k l1).
          -- now rewrite push_skip_11.
          -- rewrite push_skip_12 by auto. unfold JM. rewrite get_tab3 by lia. apply bsum_ext. intros j Hj. rewrite Gm by auto.
             replace (metric true M q j i) with (metric true M q i j); [ring|]. unfold metric. rewrite (Nat.eqb_sym j i).
             destruct (Nat.eqb_spec i j); [now subst|reflexivity].
          -- rewrite push_skip_21 by auto. apply bsum_ext. intros j Hj. now rewrite Gm.
          -- now rewrite push_skip_22.
        * rewrite transpose12_ok with (b := b) (n := l1) (m := l1) by auto. cbn [st_kid set_kid st_kids hd].
          match goal with |- context [jmp F k2 x (Some t) (Some ?m) Input] => set (mtT := m) end.
          pose proof (Jm l1 k2 mtT P1 (wf_tab _ _) eq_refl) as Jm2. destruct (jmp F k2 x (Some t) (Some mtT) Input) as [k3 r3].
          cbn [snd] in Jm2 |- *. subst r3. cbn [bind need].
          rewrite transpose12_ok with (b := b) (n := l2) (m := l1) by reflexivity. cbn [bind].
          unfold push, present. rewrite Emt at 1. unfold JM at 2.
          rewrite (cat22 b l1 l2). do 2 f_equal. apply tab3_ext. intros q i k Hq Hi Hk.
          destruct (Nat.ltb_spec i l1); destruct (Nat.ltb_spec k l1).
          -- now rewrite push_skip_11.
          -- rewrite push_skip_12 by auto. unfold JM. rewrite get_tab3 by lia. apply bsum_ext. intros j Hj. unfold mtT. rewrite get_tab3 by auto. rewrite Gm by auto. ring.
          -- rewrite push_skip_21 by auto. apply bsum_ext. intros j Hj. now rewrite Gm.
          -- now rewrite push_skip_22.
    - intros Hn R off v Rp. apply rep_skip_inv in Rp. specialize (I2 Hn R off v Rp).
      cbn [jmjTp db_ok negb orb ensure bind]. rewrite Es, Nx, Ny. cbn [bind]. rewrite Ey. cbn [bind].
      destruct (jmjTp F (st_kid st) x (Some t) v Weight fd td false) as [k1 r1]. cbn [snd] in I2 |- *. subst r1. cbn [to_tensor bind snd].
      destruct td.
      + rewrite reshape_ok by (rewrite Sx; change (shape (zeros (b :: c :: r))) with (b :: c :: r); rewrite !numel_cons, numel_nil; unfold l1; rewrite !numel_cons; lia).
        cbn [bind]. unfold present. rewrite cat1_2 with (b := b) (n := l1) (m := l2) by reflexivity. cbn [bind]. do 2 f_equal.
        apply tab2_ext. intros q i Hq Hi. rewrite push_skip_w. destruct (Nat.ltb_spec i l1).
        * destruct (Nat.leb_spec l1 i); [lia|]. cbn [andb]. rewrite get_mkT2. unfold zeros. rewrite Sx. unfold fill_with.
          rewrite flat_tab; [reflexivity|]. rewrite numel_cons. fold l1. nia.
        * destruct (Nat.leb_spec l1 i); [|lia]. cbn [andb]. rewrite get_tab2 by lia. reflexivity.
      + unfold present. rewrite cat2_3 with (b := b) (p := l2) (n := l1) (m := l2) by (first [reflexivity|cbn; do 3 f_equal; lia]). cbn [bind].
        rewrite cat1_3 with (b := b) (n := l1) (m := l2) (p := l1 + l2) by reflexivity. cbn [bind]. do 2 f_equal.
        apply tab3_ext. intros q i k Hq Hi Hk. rewrite push_skip_w. destruct (Nat.ltb_spec i l1).
        * destruct (Nat.leb_spec l1 i); [lia|]. cbn [andb]. unfold zeros, fill_with. rewrite get_tab; [reflexivity|]. cbn; auto.
        * destruct (Nat.leb_spec l1 i); [|lia]. cbn [andb]. rewrite get_tab3 by lia. destruct (Nat.ltb_spec k l1); destruct (Nat.leb_spec l1 k); try lia.
          -- unfold zeros, fill_with. rewrite get_tab; [reflexivity|]. cbn. repeat split; lia.
          -- now rewrite get_tab3 by lia.
  Qed.

  Lemma push_at_add n J M M' q i k :
    push_at n J (fun q i k => nadd (M q i k) (M' q i k)) q i k = nadd (push_at n J M q i k) (@push_at K _ n J M' q i k).
  Proof.
    unfold push_at. rewrite <- bsum_add. apply bsum_ext. intros j Hj. rewrite <- bsum_add. apply bsum_ext. intros. ring.
  Qed.
  Lemma push_at_split n m J M q i k : (forall p p', p < n -> p' < m -> M q p (n + p') = n0 /\ M q (n + p') p = n0) ->
    push_at (n + m) J M q i k =
    nadd (push_at n J M q i k) (@push_at K _ m (fun q i p => J q i (n + p)) (fun q p p' => M q (n + p) (n + p')) q i k).
  Proof.
    intros Z. unfold push_at. rewrite bsum_app. f_equal; apply bsum_ext; intros j Hj; rewrite bsum_app.
    - rewrite (bsum_0 m) by (intros l Hl; rewrite (proj1 (Z j l Hj Hl)); ring). ring.
    - rewrite (bsum_0 n) by (intros l Hl; rewrite (proj2 (Z l j Hl Hj)); ring). ring.
  Qed.
  Lemma metric_tab3 b n A q i k : q < b -> i < n -> k < n -> metric false (@tab3 K b n n A) q i k = A q i k.
  Proof. intros. unfold metric. now rewrite get_tab3. Qed.
  Lemma push_push b m k n J1 J2 fd td (M : T) :
    push b m k J1 false td (push b k n J2 fd false M) = push b m n (fun q i j => bsum k (fun a => nmul (J1 q i a) (J2 q a j))) fd td M.
  Proof.
    apply present_ext. intros q i l Hq Hi Hl. rewrite <- push_at_comp. apply push_at_ext; auto.
    intros a c Ha Hc. now apply metric_tab3.
  Qed.
  Lemma push_tab3 b m n J td A : push b m n J false td (tab3 b n n A) = present td b m (@push_at K _ n J A).
  Proof. apply present_ext. intros. apply push_at_ext; auto. intros. now apply metric_tab3. Qed.
  Lemma tadd_present td b n A B : tadd_ (@present K td b n A) (present td b n B) = Ok (present td b n (fun q i k => nadd (A q i k) (B q i k))).
  Proof.
    rewrite tadd_inplace_same by now rewrite !shape_present. f_equal. destruct td; apply tab_ext; intros idx V; didx idx V; unfold present.
    - now rewrite !get_tab2.
    - now rewrite !get_tab3.
  Qed.

  (** one step of the loop over the layers *)
  Lemma eff_cons_1 (m : module K) ms fd R off q p p' : p < n_params m -> p' < n_params m ->
    eff (seq_leaf_at leaf_at (m :: ms)) fd R off q p p' = eff (leaf_at m) fd R off q p p'.
  Proof.
    intros Hp Hp'. unfold eff, same_layer. cbn [seq_leaf_at].
    destruct (Nat.ltb_spec p (n_params m)); [|lia]. destruct (Nat.ltb_spec p' (n_params m)); [|lia]. reflexivity.
  Qed.
  Lemma eff_cons_2 (m : module K) ms fd R off q p p' :
    eff (seq_leaf_at leaf_at (m :: ms)) fd R off q (n_params m + p) (n_params m + p') =
    eff (seq_leaf_at leaf_at ms) fd R (off + n_params m) q p p'.
  Proof.
    unfold eff, same_layer. cbn [seq_leaf_at].
    destruct (Nat.ltb_spec (n_params m + p) (n_params m)); [lia|]. destruct (Nat.ltb_spec (n_params m + p') (n_params m)); [lia|].
    replace (n_params m + p - n_params m) with p by lia. replace (n_params m + p' - n_params m) with p' by lia.
    assert (Q : forall a c, (n_params m + a =? n_params m + c) = (a =? c)).
    { intros a c. destruct (Nat.eqb_spec a c), (Nat.eqb_spec (n_params m + a) (n_params m + c)); auto; lia. }
    rewrite Q. unfold dpart. rewrite Q, !Nat.add_assoc. reflexivity.
  Qed.
  Lemma eff_cons_x (m : module K) ms fd R off q p p' : p < n_params m ->
    eff (seq_leaf_at leaf_at (m :: ms)) fd R off q p (n_params m + p') = n0 /\
    eff (seq_leaf_at leaf_at (m :: ms)) fd R off q (n_params m + p') p = n0.
  Proof.
    intros Hp. unfold eff, same_layer. cbn [seq_leaf_at].
    destruct (Nat.ltb_spec p (n_params m)); [|lia]. destruct (Nat.ltb_spec (n_params m + p') (n_params m)); [lia|].
    pose proof (leaf_at_le m p). split; match goal with |- context [?a =? ?b] => destruct (Nat.eqb_spec a b); [lia|reflexivity] end.
  Qed.

  Lemma push_step m s s1 st b x y fd td R off blk acc A : typed m s s1 -> 0 < b -> wf x -> shape x = b :: s -> coh m st x ->
    (forall st fd td, coh m st x -> push_ok m s s1 st b x (Some y) fd td) ->
    (n_params m <> 0 -> rep fd b R m off blk) -> accv acc (numel s) b A ->
    exists st1 acc1, 
      (match acc with VNone => (st, Ok VNone) | a => jmjTp m st x (Some y) a Input false td false end) = (st1, Ok acc1) /\
      coh m st1 x /\
      let A1 := fun q i k => nadd (push_at (numel s) (JX m x) A q i k) (push_at (n_params m) (JW m x) (eff (leaf_at m) fd R off) q i k) in
      let out := if match acc with VNone => n_params m =? 0 | _ => false end then VNone else VT (present td b (numel s1) A1) in
      (n_params m = 0 -> acc1 = out) /\
      (n_params m <> 0 -> exists st2 r2 acc2, jmjTp m st1 x (Some y) blk Weight fd td false = (st2, r2) /\
        coh m st2 x /\
        (new <- r2 ;; new <- to_opt new ;; acc <- to_opt acc1 ;; accumulate acc new) = Ok acc2 /\ of_opt acc2 = out).
  Proof.
    intros Ty Hb Wx Sx C IH Rb Ha.
    destruct Ha as [[-> A0]| ->].
    - exists st, VNone. split; [reflexivity|]. split; auto. cbn zeta. split.
      + intros ->. reflexivity.
      + intros Hn. destruct (IH st fd td C) as [_ I2]. specialize (I2 Hn R off blk (Rb Hn)).
        pose proof (proj1 (jmjTp_keeps BF BPF) m s s1 Ty (Some y) blk Weight fd td false b st x Hb Wx Sx C) as C2. cbn beta in C2.
        destruct (jmjTp m st x (Some y) blk Weight fd td false) as [st2 r2]. cbn [fst snd] in *. subst r2.
        exists st2. do 2 eexists. split; [reflexivity|]. split; auto. split; [reflexivity|]. cbn [of_opt].
        destruct (Nat.eqb_spec (n_params m) 0); [contradiction|]. f_equal. apply present_ext. intros q i k Hq Hi Hk.
        rewrite (push_at_0 (numel s) (JX m x) A) by auto. ring.
    - destruct (IH st false td C) as [I1 _]. specialize (I1 (tab3 b (numel s) (numel s) A) (wf_tab _ _) eq_refl).
      pose proof (proj1 (jmjTp_keeps BF BPF) m s s1 Ty (Some y) (VT (tab3 b (numel s) (numel s) A)) Input false td false b st x Hb Wx Sx C) as C1.
      cbn beta in C1. destruct (jmjTp m st x (Some y) (VT _) Input false td false) as [st1 r1]. cbn [fst snd] in *. subst r1.
      exists st1. eexists. split; [reflexivity|]. split; auto. rewrite push_tab3. cbn zeta. split.
      + intros Z. f_equal. apply present_ext. intros q i k Hq Hi Hk. rewrite Z. unfold push_at at 3. cbn [bsum]. ring.
      + intros Hn. destruct (IH st1 fd td C1) as [_ I2]. specialize (I2 Hn R off blk (Rb Hn)).
        pose proof (proj1 (jmjTp_keeps BF BPF) m s s1 Ty (Some y) blk Weight fd td false b st1 x Hb Wx Sx C1) as C2. cbn beta in C2.
        destruct (jmjTp m st1 x (Some y) blk Weight fd td false) as [st2 r2]. cbn [fst snd] in *. subst r2.
        exists st2. do 2 eexists. split; [reflexivity|]. split; auto. cbn [bind to_opt accumulate]. rewrite tadd_present. cbn [some bind].
        split; [reflexivity|]. reflexivity.
  Qed.

  Lemma metric_block fd b n off R q i k : q < b -> i < n -> k < n ->
    metric fd (@block K fd b n off R) q i k = dpart fd (fun q i k => R q (off + i) (off + k)) q i k.
  Proof.
    intros. unfold metric, dpart, block, present. destruct fd.
    - now rewrite get_tab2.
    - now rewrite get_tab3.
  Qed.

  Lemma tree_push :
    (forall m s s', typed m s s' -> fwdable m -> nonempty m -> forall b st x y fd td, 0 < b -> wf x -> shape x = b :: s ->
       fwd m x = Ok y -> coh m st x -> push_ok m s s' st b x (Some y) fd td) /\
    (forall ms s s', typed_seq ms s s' -> seq_push_P ms s s').
  Proof.
    apply typed_both.
    - intros l s s' Ty Fb _ b st x y fd td Hb Wx Sx Fy _. rewrite fwd_Leaf in Fy.
      assert (Fl : flags_ok fd td false) by discriminate.
      destruct (BL l s s' Ty Fb b x y (Some y) Hb Wx Sx Fy (or_intror eq_refl) fd td false Fl) as [E1 E2].
      split.
      + intros M WM SM. cbn [jmjTp snd to_opt bind JX]. now rewrite (E1 M WM SM).
      + intros Hn R off v Rp. inversion Rp; subst. cbn [jmjTp snd to_opt bind JW n_params leaf_at] in *.
        rewrite E2.
        * unfold wopt. destruct (Nat.eqb_spec (leaf_n_params l) 0); [contradiction|]. cbn [bind of_opt]. do 2 f_equal.
          apply present_ext. intros q i k Hq Hi Hk. apply push_at_ext; auto. intros j j' Hj Hj'. rewrite metric_block by auto.
          unfold eff, same_layer. now rewrite Nat.eqb_refl.
        * destruct fd; apply wf_tab.
        * unfold block. now rewrite shape_present.
    - intros cfg s s' Ty [].
    - intros ms s s' Ty IH Fb [Nn Ne] b st x y fd td Hb Wx Sx Fy C. rewrite ne_go in Ne. change (fwdable_seq ms) in Fb. now apply tree_push_seq_body.
    - intros ms c c' r Ty IH Fb [Nn Ne] b st x y fd td Hb Wx Sx Fy C. rewrite ne_go in Ne. change (fwdable_seq ms) in Fb.
      apply tree_push_skip; auto. intros. now apply tree_push_seq_body.
    - intros s Hs Fb Ne b fma k fm ks x fd td Hb Wx Sx C Sk. split; intros; contradiction.
    - intros m ms s s1 s2 Tm IHm Ts IHs [Fm Fs] [Nm Ns] b fma k fm ks x fd td Hb Wx Sx C Sk.
      destruct C as (st & ks' & fm' & y & -> & -> & Fy & Cm & Cs). destruct (coh_seq_head _ _ _ _ _ Cs) as [r0 ->].
      destruct (typed_fwd_y BF BPF _ _ _ b x y Tm Hb Wx Sx Fy) as [Wy Sy]. destruct (fmaps_ok fma (x :: y :: r0) k x y r0 Sk) as [Ef Sk'].
      assert (Py : per y = numel s1) by (unfold per; now rewrite Sy).
      assert (JXe : forall q i j, seq_JX JX (m :: ms) x q i j = bsum (numel s1) (fun k => nmul (seq_JX JX ms y q i k) (JX m x q k j))).
      { intros. cbn [seq_JX]. now rewrite Fy, Py. }
      assert (IH : forall st fd td, coh m st x -> push_ok m s s1 st b x (Some y) fd td) by (intros; now apply IHm).
      split.
      + intros M WM SM _. cbn [seq_jmjTp_in kid_split]. rewrite Ef.
        set (fd' := if k =? 0 then fd else false) in *. set (td' := match ms with [] => td | _ => false end).
        destruct (IH st fd' td' Cm) as [I1 _]. specialize (I1 M WM SM).
        destruct (jmjTp m st x (Some y) (VT M) Input fd' td' false) as [k1 r1]. cbn [snd] in I1. subst r1.
        destruct ms as [|m2 ms].
        * inversion Ts; subst. cbn [snd seq_jmjTp_in]. do 2 f_equal. unfold td'. apply push_Jext. intros q i j Hq Hi Hj. rewrite JXe.
          cbn [seq_JX]. now rewrite bsum_delta_l.
        * destruct (IHs Fs Ns b fma (S k) (y :: r0) ks' y fd td Hb Wy Sy Cs Sk') as [I2 _].
          specialize (I2 (push b (numel s1) (numel s) (JX m x) fd' td' M) (wf_present _ _ _ _) eq_refl ltac:(discriminate)).
          destruct (seq_jmjTp_in jmjTp true fma (m2 :: ms) ks' (S k)) as [ks2 r2]. cbn [snd] in *. rewrite I2. cbn [Nat.eqb]. unfold td'.
          rewrite push_push. do 2 f_equal. apply push_Jext. intros q i j Hq Hi Hj. now rewrite JXe.
      + intros R off bs acc A Rs Ha _. cbn [seq_jmjTp_w kid_split]. rewrite Ef.
        set (td' := match ms with [] => td | _ => false end).
        set (A1 := fun q i k => nadd (push_at (numel s) (JX m x) A q i k) (push_at (n_params m) (JW m x) (eff (leaf_at m) fd R off) q i k)).
        set (acc2 := if match acc with VNone => n_params m =? 0 | _ => false end then VNone else VT (present td' b (numel s1) A1)).
        (** what remains once acc2 is computed *)
        assert (Fin : forall bs', (ms = [] -> True) -> reps fd b R ms (off + n_params m) bs' ->
           snd (seq_jmjTp_w jmjTp true fma ms ks' (S k) bs' acc2 fd td false) =
           Ok (if match acc with VNone => seq_np (m :: ms) =? 0 | _ => false end then VNone else
             VT (present td b (numel s2) (fun q i k => nadd (push_at (numel s) (seq_JX JX (m :: ms) x) A q i k)
                (push_at (seq_np (m :: ms)) (seq_JW JW (m :: ms) x) (eff (seq_leaf_at leaf_at (m :: ms)) fd R off) q i k))))).
        { intros bs' _ Rs'.
          assert (EJ : forall q i p, p < n_params m -> seq_JW JW (m :: ms) x q i p = bsum (numel s1) (fun k => nmul (seq_JX JX ms y q i k) (JW m x q k p))).
          { intros q i p Hp. cbn [seq_JW]. rewrite Fy, Py. destruct (Nat.ltb_spec p (n_params m)); [reflexivity|lia]. }
          assert (EA : forall q i k, push_at (seq_np (m :: ms)) (seq_JW JW (m :: ms) x) (eff (seq_leaf_at leaf_at (m :: ms)) fd R off) q i k =
             nadd (push_at (numel s1) (seq_JX JX ms y) (push_at (n_params m) (JW m x) (eff (leaf_at m) fd R off)) q i k)
               (push_at (seq_np ms) (seq_JW JW ms y) (eff (seq_leaf_at leaf_at ms) fd R (off + n_params m)) q i k)).
          { intros q i k0. change (seq_np (m :: ms)) with (n_params m + seq_np ms). rewrite push_at_split by (intros; now apply eff_cons_x).
            rewrite push_at_comp. f_equal.
            - apply push_at_ext; [intros; now rewrite EJ|intros; now rewrite EJ|]. intros. now apply eff_cons_1.
            - apply push_at_ext.
              + intros p Hp. cbn [seq_JW]. rewrite Fy. destruct (Nat.ltb_spec (n_params m + p) (n_params m)); [lia|]. now replace (n_params m + p - n_params m) with p by lia.
              + intros p Hp. cbn [seq_JW]. rewrite Fy. destruct (Nat.ltb_spec (n_params m + p) (n_params m)); [lia|]. now replace (n_params m + p - n_params m) with p by lia.
              + intros. apply eff_cons_2. }
          assert (EX : forall q i k, push_at (numel s) (seq_JX JX (m :: ms) x) A q i k = push_at (numel s1) (seq_JX JX ms y) (push_at (numel s) (JX m x) A) q i k).
          { intros q i k0. rewrite push_at_comp. apply push_at_ext; auto; intros; apply JXe. }
          destruct ms as [|m2 ms].
          - inversion Ts; subst. cbn [seq_jmjTp_w snd]. unfold acc2. assert (Q0 : (seq_np [m] =? 0) = (n_params m =? 0)) by (unfold seq_np; cbn [fold_right]; now rewrite Nat.add_0_r). rewrite Q0.
            destruct (match acc with VNone => _ | _ => _ end); auto. do 2 f_equal. unfold td'. apply present_ext. intros q i k0 Hq Hi Hk.
            rewrite EA, EX. cbn [seq_JX]. rewrite !push_at_delta by auto. match goal with |- context [push_at (seq_np []) ?J ?M q i k0] => change (push_at (seq_np []) J M q i k0) with (@n0 K _) end. unfold A1. ring.
          - destruct (IHs Fs Ns b fma (S k) (y :: r0) ks' y fd td Hb Wy Sy Cs Sk') as [_ I2].
            assert (Ha2 : accv acc2 (numel s1) b A1).
            { unfold acc2. destruct acc; cbn [andb].
              - destruct (Nat.eqb_spec (n_params m) 0) as [Z|Z]; [|right; reflexivity]. left. split; auto. intros q i k0. unfold A1. rewrite Z.
                destruct Ha as [[_ A0]|]; [|discriminate]. rewrite push_at_0 by auto. unfold push_at. cbn [bsum]. ring.
              - right; reflexivity.
              - right; reflexivity. }
            specialize (I2 R (off + n_params m) bs' acc2 A1 Rs' Ha2 ltac:(discriminate)). rewrite I2. f_equal.
            replace (match acc2 with VNone => seq_np (m2 :: ms) =? 0 | _ => false end) with (match acc with VNone => seq_np (m :: m2 :: ms) =? 0 | _ => false end).
            2:{ unfold acc2. destruct acc; auto. change (seq_np (m :: m2 :: ms)) with (n_params m + seq_np (m2 :: ms)).
                destruct (Nat.eqb_spec (n_params m) 0) as [Z|Z]; [now rewrite Z|]. destruct (Nat.eqb_spec (n_params m + seq_np (m2 :: ms)) 0); [lia|reflexivity]. }
            set (cnd := match acc with VNone => seq_np (m :: m2 :: ms) =? 0 | _ => false end). destruct cnd; auto. f_equal. apply present_ext. intros q i k0 Hq Hi Hk.
            rewrite EA, EX. unfold A1. rewrite push_at_add. ring. }
        destruct (Nat.eqb_spec (n_params m) 0) as [Z|Z].
        * assert (Rs' : reps fd b R ms (off + n_params m) bs).
          { rewrite Z, Nat.add_0_r. inversion Rs; subst; auto. contradiction. }
          destruct (push_step m s s1 st b x y fd td' R off VNone acc A Tm Hb Wx Sx Cm IH ltac:(contradiction) Ha) as (st1 & acc1 & E1 & C1 & E2 & _).
          rewrite E1. rewrite (E2 Z). fold A1. fold acc2. specialize (Fin bs (fun _ => I) Rs'). unfold acc2, A1 in Fin |- *. cbn zeta in Fin |- *.
          replace (n_params m =? 0) with true by (now rewrite Z). match goal with |- snd (match ?z with _ => _ end) = _ => transitivity (snd z); [destruct z; reflexivity|exact Fin] end.
        * inversion Rs as [|? ? ? ? Z' |? ? ? blk bs0 _ Rb Rs']; subst; [contradiction|].
          destruct (push_step m s s1 st b x y fd td' R off blk acc A Tm Hb Wx Sx Cm IH (fun _ => Rb) Ha) as (st1 & acc1 & E1 & C1 & _ & E2).
          rewrite E1. cbn [bind]. destruct (E2 Z) as (st2 & r2 & acc2' & E3 & C2 & E4 & E5). rewrite E3, E4, E5. fold A1. fold acc2.
          specialize (Fin bs0 (fun _ => I) Rs'). unfold acc2, A1 in Fin |- *. cbn zeta in Fin |- *. replace (n_params m =? 0) with false by (now destruct (Nat.eqb_spec (n_params m) 0)). match goal with |- snd (match ?z with _ => _ end) = _ => transitivity (snd z); [destruct z; reflexivity|exact Fin] end.
  Qed.

  (** val absent *)
  Lemma tree_push_none m s s' : typed m s s' -> fwdable m -> nonempty m -> forall b st x y fd td, 0 < b -> wf x -> shape x = b :: s ->
    fwd m x = Ok y -> push_ok m s s' st b x None fd td.
  Proof.
    intros Ty Fb Ne b st x y fd td Hb Wx Sx Fy.
    pose proof (typed_coh BF BPF m s s' Ty b x st Hb Wx Sx) as C.
    destruct (proj1 tree_push m s s' Ty Fb Ne b (fst (forward m st x)) x y fd td Hb Wx Sx Fy C) as [I1 I2].
    destruct m as [l|cfg|h ms|F].
    - inversion Ty; subst. rewrite fwd_Leaf in Fy. assert (Fl : flags_ok fd td false) by discriminate.
      destruct (BL l s s' H0 Fb b x y None Hb Wx Sx Fy (or_introl eq_refl) fd td false Fl) as [E1 E2].
      destruct (BL l s s' H0 Fb b x y (Some y) Hb Wx Sx Fy (or_intror eq_refl) fd td false Fl) as [E3 E4].
      split.
      + intros M WM SM. cbn [jmjTp snd to_opt bind JX]. now rewrite (E1 M WM SM).
      + intros Hn R off v Rp. rewrite <- (I2 Hn R off v Rp). inversion Rp; subst. cbn [jmjTp snd to_opt bind JW n_params leaf_at] in *.
        rewrite E2, E4; auto; try (unfold block; now rewrite shape_present); destruct fd; apply wf_tab.
    - contradiction.
    - assert (Q : forall v w, jmjTp (Seq h ms) st x None v w fd td false = jmjTp (Seq h ms) (fst (forward (Seq h ms) st x)) x (Some y) v w fd td false).
      { intros v w. cbn [jmjTp db_ok negb orb ensure]. rewrite (forward_eta (Seq h ms) st x), Fy at 1. cbn [fst snd]. reflexivity. }
      split; intros; rewrite Q; auto.
    - remember (Skip F) as S eqn:ES.
      assert (Q : forall v w, jmjTp S st x None v w fd td false = jmjTp S (fst (forward S st x)) x (Some y) v w fd td false).
      { intros v w. subst S. cbn [jmjTp db_ok negb orb]. unfold ensure. rewrite (forward_eta (Skip F) st x) at 1. rewrite Fy. reflexivity. }
      split; intros; rewrite Q; auto.
  Qed.
End Push.
