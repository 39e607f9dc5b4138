(** jmjTp with respect to the parameters: if it returns, it returns J M J^T (no assumption on which layers occur). *)
From Coq Require Import String Ascii List Arith ZArith Lia Bool.
From Verif Require Import Scalar Sums Tensor TensorLemmas EinsumLemmas Conv Abstract Simple LinearLayer ConvLayer PoolLayer
  Module Spec SpecQ Domain OpLemmas ReshapeLemmas Jac LeafSpec LeafSimple TreeBase TreeVjp StateCoh TreeMjp TreePull TreeJvp TreeJmp TreePush Leaves Trees
  LoudSpec Loud.
Import ListNotations.
Local Open Scope nat_scope.
Local Open Scope list_scope.

Section SoundPush.
  Context {K} `{CR : CRing K}.
  Add Ring Kring : (cring : ring_theory n0 n1 nadd nmul nsub nopp (@eq K)).
  Notation gt := (get (@n0 K _)).
  Notation T := (tensor K).

  Lemma leaf_pushes l s s' : leaf_typed l s s' -> leaf_fwdable l -> @leaf_push_spec K _ l s s'.
  Proof. intros H G. exact (proj2 (proj2 (leaf_forth l s s' H G))). Qed.
  Definition tree_push0 := tree_push BF BPF (fun l s s' H G => proj1 (proj2 (leaf_forth (K := K) l s s' H G))) leaf_pushes.

  (** a product with respect to the input that returns has only supported layers below it *)
  Lemma jmjTp_in_fwdable (m : module K) h x val v fd td db t : snd (jmjTp m h x val v Input fd td db) = Ok t -> fwdable m.
  Proof.
    intros E. destruct (fwdable_dec m) as [F|F]; auto. exfalso. apply F. apply fwdable_occurs. intros p O P.
    destruct (loud_jmjTp_input p m O P h x val v fd td db) as [e E']. congruence.
  Qed.

  Definition push_snd (m : module K) (s s' : list nat) (st : st K) b x val fd td : Prop :=
    n_params m <> 0 -> forall R off v t, rep fd b R m off v ->
      snd (jmjTp m st x val v Weight fd td false) = Ok t ->
      t = VT (present td b (numel s') (push_at (n_params m) (JW m x) (eff (leaf_at m) fd R off))).

  Definition seq_push_S (ms : list (module K)) s s' : Prop := nonempty_seq ms ->
    forall b fma k fm ks x fd td, 0 < b -> wf x -> shape x = b :: s -> coh_seq coh ms ks fm x -> skipn k fma = fm ->
    forall R off bs acc A t, reps fd b R ms off bs -> accv acc (numel s) b A -> ms <> [] ->
       snd (seq_jmjTp_w jmjTp true fma ms ks k bs acc fd td false) = Ok t ->
       t = (if match acc with VNone => seq_np ms =? 0 | _ => false end then VNone else
         VT (present td b (numel s') (fun q i k => nadd (push_at (numel s) (seq_JX JX ms x) A q i k)
            (push_at (seq_np ms) (seq_JW JW ms x) (eff (seq_leaf_at leaf_at ms) fd R off) q i k)))).

  Lemma sound_push_seq_body ms s s' : seq_push_S ms s s' -> typed_seq ms s s' -> nonempty_seq ms -> ms <> [] ->
    forall b st x val fd td, 0 < b -> wf x -> shape x = b :: s -> coh (Seq true ms) st x ->
    push_snd (Seq true ms) s s' st b x (Some val) fd td.
  Proof.
    intros IH Ty Ne Nn b st x val fd td Hb Wx Sx [_ C].
    pose proof (IH Ne b (st_fm st) 0 (st_fm st) (st_kids st) x fd td Hb Wx Sx C eq_refl) as I2.
    intros Hn R off v t Rp. assert (Hs : exists bs, match v with VL l => Ok l | VT t => seq_blocks ms t 0 fd | VNone => Raise TypeError end = Ok bs /\ reps fd b R ms off bs).
    { inversion Rp; subst.
      - destruct (seq_blocks_ok fd b R off ms 0 (seq_np ms) _ (le_n _) eq_refl) as (vs & E & Rs). rewrite Nat.add_0_r in Rs. eauto.
      - eauto. }
    destruct Hs as (bs & Eb & Rs). specialize (I2 R off bs VNone (fun _ _ _ => n0) t Rs (or_introl (conj eq_refl (fun _ _ _ => eq_refl))) Nn).
    cbn [jmjTp db_ok ensure negb orb JW].
    destruct (Nat.eqb_spec (seq_np ms) 0); [exfalso; apply Hn; assumption|].
    assert (Ev : (('(mt, fd0) <- match v with VNone => b0 <- size 0 x ;; Ok (VT (ones [b0; n_params (Seq true ms)]), true) | _ => Ok (v, fd) end ;;
                  bs0 <- match mt with VNone => Raise TypeError | VT t => seq_blocks ms t 0 fd0 | VL l => Ok l end ;; Ok (bs0, fd0)) = Ok (bs, fd))).
    { destruct v; [discriminate Eb| |]; cbn [bind]; [now rewrite Eb|]. injection Eb as ->. reflexivity. }
    rewrite Ev. destruct seq_jmjTp_w as [ks r]. cbn [snd] in *. intros E. rewrite (I2 E). f_equal. apply present_ext. intros q i k Hq Hi Hk.
    rewrite push_at_0 by auto. match goal with |- nadd n0 ?a = _ => transitivity a; [ring|reflexivity] end.
  Qed.

  Lemma ok_inj {A} (a c : A) : Ok a = Ok c -> c = a.
  Proof. congruence. Qed.
  Lemma sound_push_skip ms c c' r b st x y fd td : typed_seq ms (c :: r) (c' :: r) ->
    0 < b -> wf x -> shape x = b :: c :: r -> fwd (Skip (Seq true ms)) x = Ok y -> coh (Skip (Seq true ms)) st x ->
    (forall st val, coh (Seq true ms) st x -> push_snd (Seq true ms) (c :: r) (c' :: r) st b x (Some val) fd td) ->
    push_snd (Skip (Seq true ms)) (c :: r) (c + c' :: r) st b x (Some y) fd td.
  Proof.
    intros Ty Hb Wx Sx Fy (Ck & C) I0.
    destruct (typed_fwd_y BF BPF _ _ _ b x y (ty_skip ms c c' r Ty) Hb Wx Sx Fy) as [Wy Sy].
    assert (N' : numel (c + c' :: r) = numel (c :: r) + numel (c' :: r)) by (numels; ring).
    assert (Nx : numel0 x = Ok (numel (c :: r))) by (now apply (numel0_ok x b)).
    assert (Ny : numel0 y = Ok (numel (c + c' :: r))) by (now apply (numel0_ok y b)).
    assert (Es : size 0 x = Ok b) by (unfold size; now rewrite Sx).
    destruct (slice_from_any y (numel (c :: r))) as [t Ey]; [unfold rank; rewrite Sy; cbn; lia|].
    pose proof (I0 (st_kid st) t C) as I2.
    set (l1 := numel (c :: r)) in *. set (l2 := numel (c' :: r)) in *. unfold push_snd. rewrite N' in Ny |- *. fold l1 in Ny |- *.
    assert (Ps : per x = l1) by (unfold per; now rewrite Sx).
    remember (Seq true ms) as F.
    assert (JWe : JW (Skip F) x = fun q i j => if i <? l1 then n0 else JW F x q (i - l1) j) by (cbn [JW]; now rewrite Ps).
    rewrite JWe.
    intros Hn R off v t0 Rp. apply rep_skip_inv in Rp.
    cbn [jmjTp db_ok negb orb ensure bind]. rewrite Es, Nx, Ny. cbn [bind]. rewrite Ey. cbn [bind].
    specialize (I2 Hn R off v). destruct (jmjTp F (st_kid st) x (Some t) v Weight fd td false) as [k1 [r1|e]]; cbn [snd] in I2 |- *; [|discriminate].
    specialize (I2 r1 Rp eq_refl). subst r1. cbn [to_tensor bind snd].
    destruct td.
    + rewrite reshape_ok by (rewrite Sx; change (shape (zeros (b :: c :: r))) with (b :: c :: r); rewrite !numel_cons, numel_nil; unfold l1; rewrite !numel_cons; lia).
      cbn [bind]. unfold present. rewrite cat1_2 with (b := b) (n := l1) (m := l2) by reflexivity. cbn [bind]. intros E. apply ok_inj in E. subst t0. f_equal.
      apply tab2_ext. intros q i Hq Hi. rewrite push_skip_w. destruct (Nat.ltb_spec i l1).
      * destruct (Nat.leb_spec l1 i); [lia|]. cbn [andb]. rewrite get_mkT2. unfold zeros. rewrite Sx. unfold fill_with.
        rewrite flat_tab; [reflexivity|]. rewrite numel_cons. fold l1. nia.
      * destruct (Nat.leb_spec l1 i); [|lia]. cbn [andb]. rewrite get_tab2 by lia. reflexivity.
    + unfold present. rewrite cat2_3 with (b := b) (p := l2) (n := l1) (m := l2) by (first [reflexivity|cbn; do 3 f_equal; lia]). cbn [bind].
      rewrite cat1_3 with (b := b) (n := l1) (m := l2) (p := l1 + l2) by reflexivity. cbn [bind]. intros E. apply ok_inj in E. subst t0. f_equal.
      apply tab3_ext. intros q i k Hq Hi Hk. rewrite push_skip_w. destruct (Nat.ltb_spec i l1).
      * destruct (Nat.leb_spec l1 i); [lia|]. cbn [andb]. unfold zeros, fill_with. rewrite get_tab; [reflexivity|]. cbn; auto.
      * destruct (Nat.leb_spec l1 i); [|lia]. cbn [andb]. rewrite get_tab3 by lia. destruct (Nat.ltb_spec k l1); destruct (Nat.leb_spec l1 k); try lia.
        -- unfold zeros, fill_with. rewrite get_tab; [reflexivity|]. cbn. repeat split; lia.
        -- now rewrite get_tab3 by lia.
  Qed.

  Lemma sound_step m s s1 st b x y fd td R off blk acc A : typed m s s1 -> nonempty m -> 0 < b -> wf x -> shape x = b :: s -> fwd m x = Ok y -> coh m st x ->
    (forall st fd td, coh m st x -> push_snd m s s1 st b x (Some y) fd td) ->
    (n_params m <> 0 -> rep fd b R m off blk) -> accv acc (numel s) b A ->
    forall st1 acc1,
      (match acc with VNone => (st, Ok VNone) | a => jmjTp m st x (Some y) a Input false td false end) = (st1, Ok acc1) ->
      coh m st1 x /\
      let A1 := fun q i k => nadd (push_at (numel s) (JX m x) A q i k) (push_at (n_params m) (JW m x) (eff (leaf_at m) fd R off) q i k) in
      let out := if match acc with VNone => n_params m =? 0 | _ => false end then VNone else VT (present td b (numel s1) A1) in
      (n_params m = 0 -> acc1 = out) /\
      (n_params m <> 0 -> forall acc2,
        (new <- snd (jmjTp m st1 x (Some y) blk Weight fd td false) ;; new <- to_opt new ;; acc <- to_opt acc1 ;; accumulate acc new) = Ok acc2 -> of_opt acc2 = out).
  Proof.
    intros Ty Ne Hb Wx Sx Fy C IH Rb Ha st1 acc1.
    destruct Ha as [[-> A0]| ->].
    - intros E. injection E as <- <-. split; auto. cbn zeta. split.
      + intros ->. reflexivity.
      + intros Hn acc2. pose proof (fun t => IH st fd td C Hn R off blk t (Rb Hn)) as I2.
        destruct (jmjTp m st x (Some y) blk Weight fd td false) as [st2 [r2|e]]; cbn [snd bind] in *; [|discriminate]. specialize (I2 r2 eq_refl). subst r2.
        cbn [to_opt bind accumulate]. intros E. injection E as <-. cbn [of_opt].
        destruct (Nat.eqb_spec (n_params m) 0); [contradiction|]. f_equal. apply present_ext. intros q i k Hq Hi Hk.
        rewrite (push_at_0 (numel s) (JX m x) A) by auto. ring.
    - intros E. assert (Fb : fwdable m) by (eapply jmjTp_in_fwdable; rewrite E; reflexivity).
      destruct (proj1 tree_push0 m s s1 Ty Fb Ne b st x y false td Hb Wx Sx Fy C) as [I1 _].
      specialize (I1 (tab3 b (numel s) (numel s) A) (wf_tab _ _) eq_refl).
      pose proof (proj1 (jmjTp_keeps BF BPF) m s s1 Ty (Some y) (VT (tab3 b (numel s) (numel s) A)) Input false td false b st x Hb Wx Sx C) as C1.
      cbn beta in C1. rewrite E in I1, C1. cbn [fst snd] in I1, C1. injection I1 as ->. split; auto. rewrite push_tab3. cbn zeta. split.
      + intros Z. f_equal. apply present_ext. intros q i k Hq Hi Hk. rewrite Z. unfold push_at at 3. cbn [bsum]. ring.
      + intros Hn acc2. pose proof (fun t => IH st1 fd td C1 Hn R off blk t (Rb Hn)) as I2.
        destruct (jmjTp m st1 x (Some y) blk Weight fd td false) as [st2 [r2|e]]; cbn [snd bind] in *; [|discriminate]. specialize (I2 r2 eq_refl). subst r2.
        cbn [bind to_opt accumulate]. rewrite tadd_present. cbn [some bind]. intros E2. injection E2 as <-. reflexivity.
  Qed.

  Lemma sound_push :
    (forall m s s', typed m s s' -> nonempty m -> forall b st x y fd td, 0 < b -> wf x -> shape x = b :: s ->
       fwd m x = Ok y -> coh m st x -> push_snd m s s' st b x (Some y) fd td) /\
    (forall ms s s', typed_seq ms s s' -> seq_push_S ms s s').
  Proof.
    apply typed_both.
    - intros l s s' Ty Ne b st x y fd td Hb Wx Sx Fy C Hn R off v t Rp E.
      assert (Fb : fwdable (Leaf l)).
      { destruct l as [| cf Wc bc | | | | | |]; try exact I.
        - destruct (loud_jmjTp_weight (Leaf (Conv2d cf Wc bc)) _ (oc_here _) I Hn st x (Some y) v fd td false) as [e E']. congruence.
        - now destruct Hn. }
      destruct (proj1 tree_push0 _ s s' (ty_leaf _ _ _ Ty) Fb Ne b st x y fd td Hb Wx Sx Fy C) as [_ I2]. rewrite (I2 Hn R off v Rp) in E. now injection E.
    - intros cfg s s' Ty Ne b st x y fd td Hb Wx Sx Fy C Hn. now destruct Hn.
    - intros ms s s' Ty IH [Nn Ne] b st x y fd td Hb Wx Sx Fy C. rewrite ne_go in Ne. now apply sound_push_seq_body.
    - intros ms c c' r Ty IH [Nn Ne] b st x y fd td Hb Wx Sx Fy C. rewrite ne_go in Ne.
      apply sound_push_skip; auto. intros. now apply sound_push_seq_body.
    - intros s Hs Ne b fma k fm ks x fd td Hb Wx Sx C Sk R off bs acc A t Rs Ha Nn. contradiction.
    - intros m ms s s1 s2 Tm IHm Ts IHs [Nm Ns] b fma k fm ks x fd td Hb Wx Sx C Sk.
      destruct C as (st & ks' & fm' & y & -> & -> & Fy & Cm & Cs). destruct (coh_seq_head _ _ _ _ _ Cs) as [r0 ->].
      destruct (typed_fwd_y BF BPF _ _ _ b x y Tm Hb Wx Sx Fy) as [Wy Sy]. destruct (fmaps_ok fma (x :: y :: r0) k x y r0 Sk) as [Ef Sk'].
      assert (Py : per y = numel s1) by (unfold per; now rewrite Sy).
      assert (JXe : forall q i j, seq_JX JX (m :: ms) x q i j = bsum (numel s1) (fun k => nmul (seq_JX JX ms y q i k) (JX m x q k j))).
      { intros. cbn [seq_JX]. now rewrite Fy, Py. }
      assert (IH : forall st fd td, coh m st x -> push_snd m s s1 st b x (Some y) fd td) by (intros; now apply IHm).
      intros R off bs acc A t Rs Ha _. cbn [seq_jmjTp_w kid_split]. rewrite Ef.
        set (td' := match ms with [] => td | _ => false end).
        set (A1 := fun q i k => nadd (push_at (numel s) (JX m x) A q i k) (push_at (n_params m) (JW m x) (eff (leaf_at m) fd R off) q i k)).
        set (acc2 := if match acc with VNone => n_params m =? 0 | _ => false end then VNone else VT (present td' b (numel s1) A1)).
        (** what remains once acc2 is computed *)
        assert (Fin : forall bs', (ms = [] -> True) -> reps fd b R ms (off + n_params m) bs' ->
           snd (seq_jmjTp_w jmjTp true fma ms ks' (S k) bs' acc2 fd td false) = Ok t ->
           t = (if match acc with VNone => seq_np (m :: ms) =? 0 | _ => false end then VNone else
             VT (present td b (numel s2) (fun q i k => nadd (push_at (numel s) (seq_JX JX (m :: ms) x) A q i k)
                (push_at (seq_np (m :: ms)) (seq_JW JW (m :: ms) x) (eff (seq_leaf_at leaf_at (m :: ms)) fd R off) q i k))))).
        { intros bs' _ Rs'.
          assert (EJ : forall q i p, p < n_params m -> seq_JW JW (m :: ms) x q i p = bsum (numel s1) (fun k => nmul (seq_JX JX ms y q i k) (JW m x q k p))).
          { intros q i p Hp. cbn [seq_JW]. rewrite Fy, Py. destruct (Nat.ltb_spec p (n_params m)); [reflexivity|lia]. }
          assert (EA : forall q i k, push_at (seq_np (m :: ms)) (seq_JW JW (m :: ms) x) (eff (seq_leaf_at leaf_at (m :: ms)) fd R off) q i k =
             nadd (push_at (numel s1) (seq_JX JX ms y) (push_at (n_params m) (JW m x) (eff (leaf_at m) fd R off)) q i k)
               (push_at (seq_np ms) (seq_JW JW ms y) (eff (seq_leaf_at leaf_at ms) fd R (off + n_params m)) q i k)).
          { intros q i k0. change (seq_np (m :: ms)) with (n_params m + seq_np ms). rewrite push_at_split by (intros; now apply eff_cons_x).
            rewrite push_at_comp. f_equal.
            - apply push_at_ext; [intros; now rewrite EJ|intros; now rewrite EJ|]. intros. now apply eff_cons_1.
            - apply push_at_ext.
              + intros p Hp. cbn [seq_JW]. rewrite Fy. destruct (Nat.ltb_spec (n_params m + p) (n_params m)); [lia|]. now replace (n_params m + p - n_params m) with p by lia.
              + intros p Hp. cbn [seq_JW]. rewrite Fy. destruct (Nat.ltb_spec (n_params m + p) (n_params m)); [lia|]. now replace (n_params m + p - n_params m) with p by lia.
              + intros. apply eff_cons_2. }
          assert (EX : forall q i k, push_at (numel s) (seq_JX JX (m :: ms) x) A q i k = push_at (numel s1) (seq_JX JX ms y) (push_at (numel s) (JX m x) A) q i k).
          { intros q i k0. rewrite push_at_comp. apply push_at_ext; auto; intros; apply JXe. }
          destruct ms as [|m2 ms].
          - inversion Ts; subst. cbn [seq_jmjTp_w snd]. intros E. injection E as <-. unfold acc2. assert (Q0 : (seq_np [m] =? 0) = (n_params m =? 0)) by (unfold seq_np; cbn [fold_right]; now rewrite Nat.add_0_r). rewrite Q0.
            destruct (match acc with VNone => _ | _ => _ end); auto. f_equal. unfold td'. apply present_ext. intros q i k0 Hq Hi Hk.
            rewrite EA, EX. cbn [seq_JX]. rewrite !push_at_delta by auto. match goal with |- context [push_at (seq_np []) ?J ?M q i k0] => change (push_at (seq_np []) J M q i k0) with (@n0 K _) end. unfold A1. ring.
          - pose proof (IHs Ns b fma (S k) (y :: r0) ks' y fd td Hb Wy Sy Cs Sk') as I2.
            assert (Ha2 : accv acc2 (numel s1) b A1).
            { unfold acc2. destruct acc; cbn [andb].
              - destruct (Nat.eqb_spec (n_params m) 0) as [Z|Z]; [|right; reflexivity]. left. split; auto. intros q i k0. unfold A1. rewrite Z.
                destruct Ha as [[_ A0]|]; [|discriminate]. rewrite push_at_0 by auto. unfold push_at. cbn [bsum]. ring.
              - right; reflexivity.
              - right; reflexivity. }
            specialize (I2 R (off + n_params m) bs' acc2 A1 t Rs' Ha2 ltac:(discriminate)). intros E. rewrite (I2 E).
            replace (match acc2 with VNone => seq_np (m2 :: ms) =? 0 | _ => false end) with (match acc with VNone => seq_np (m :: m2 :: ms) =? 0 | _ => false end).
            2:{ unfold acc2. destruct acc; auto. change (seq_np (m :: m2 :: ms)) with (n_params m + seq_np (m2 :: ms)).
                destruct (Nat.eqb_spec (n_params m) 0) as [Z|Z]; [now rewrite Z|]. destruct (Nat.eqb_spec (n_params m + seq_np (m2 :: ms)) 0); [lia|reflexivity]. }
            set (cnd := match acc with VNone => seq_np (m :: m2 :: ms) =? 0 | _ => false end). destruct cnd; auto. f_equal. apply present_ext. intros q i k0 Hq Hi Hk.
            rewrite EA, EX. unfold A1. rewrite push_at_add. ring. }
        set (call := match acc with VNone => (st, Ok VNone) | VT _ | VL _ => jmjTp m st x (Some y) acc Input false td' false end).
        destruct (Nat.eqb_spec (n_params m) 0) as [Z|Z].
        * assert (Rs' : reps fd b R ms (off + n_params m) bs).
          { rewrite Z, Nat.add_0_r. inversion Rs; subst; auto. contradiction. }
          pose proof (sound_step m s s1 st b x y fd td' R off VNone acc A Tm Nm Hb Wx Sx Fy Cm IH ltac:(contradiction) Ha) as St.
          fold call in St. destruct call as [st1 [acc1|e]]; [|discriminate]. destruct (St st1 acc1 eq_refl) as (_ & E2 & _).
          replace (n_params m =? 0) with true in E2 by (now rewrite Z). rewrite (E2 Z). fold A1. fold acc2. specialize (Fin bs (fun _ => I) Rs').
          intros E. apply Fin. rewrite <- E. destruct seq_jmjTp_w. reflexivity.
        * inversion Rs as [|? ? ? ? Z' |? ? ? blk bs0 _ Rb Rs']; subst; [contradiction|].
          pose proof (sound_step m s s1 st b x y fd td' R off blk acc A Tm Nm Hb Wx Sx Fy Cm IH (fun _ => Rb) Ha) as St.
          fold call in St. destruct call as [st1 [acc1|e]]; [|discriminate]. destruct (St st1 acc1 eq_refl) as (_ & _ & E2). specialize (E2 Z).
          replace (n_params m =? 0) with false in E2 by (now destruct (Nat.eqb_spec (n_params m) 0)).
          cbn [bind]. destruct (jmjTp m st1 x (Some y) blk Weight fd td' false) as [st2 r2]. cbn [snd] in E2.
          destruct (new <- r2 ;; new <- to_opt new ;; acc <- to_opt acc1 ;; accumulate acc new) as [acc3|e]; [|discriminate]. rewrite (E2 acc3 eq_refl). fold A1. fold acc2.
          specialize (Fin bs0 (fun _ => I) Rs'). intros E. apply Fin. rewrite <- E. destruct seq_jmjTp_w. reflexivity.
  Qed.

  (** val absent *)
  Lemma sound_push_none m s s' : typed m s s' -> nonempty m -> forall b st x y fd td, 0 < b -> wf x -> shape x = b :: s ->
    fwd m x = Ok y -> push_snd m s s' st b x None fd td.
  Proof.
    intros Ty Ne b st x y fd td Hb Wx Sx Fy.
    pose proof (typed_coh BF BPF m s s' Ty b x st Hb Wx Sx) as C.
    pose proof (proj1 sound_push m s s' Ty Ne b (fst (forward m st x)) x y fd td Hb Wx Sx Fy C) as I2.
    destruct m as [l|cfg|h ms|F].
    - intros Hn R off v t Rp E.
      assert (Fb : fwdable (Leaf l)).
      { destruct l as [| cf Wc bc | | | | | |]; try exact I.
        - destruct (loud_jmjTp_weight (Leaf (Conv2d cf Wc bc)) _ (oc_here _) I Hn st x None v fd td false) as [e E']. congruence.
        - now destruct Hn. }
      destruct (push_none (Leaf l) s s' b x Ty Hb Wx Sx st fd td Fb Ne) as [_ I3]. rewrite (I3 Hn R off v Rp) in E. now injection E.
    - intros Hn. now destruct Hn.
    - assert (Q : forall v w, jmjTp (Seq h ms) st x None v w fd td false = jmjTp (Seq h ms) (fst (forward (Seq h ms) st x)) x (Some y) v w fd td false).
      { intros v w. cbn [jmjTp db_ok negb orb ensure]. rewrite (forward_eta (Seq h ms) st x), Fy at 1. cbn [fst snd]. reflexivity. }
      intros Hn R off v t Rp. rewrite Q. now apply I2.
    - remember (Skip F) as Sk eqn:ES.
      assert (Q : forall v w, jmjTp Sk st x None v w fd td false = jmjTp Sk (fst (forward Sk st x)) x (Some y) v w fd td false).
      { intros v w. subst Sk. cbn [jmjTp db_ok negb orb]. unfold ensure. rewrite (forward_eta (Skip F) st x) at 1. rewrite Fy. reflexivity. }
      intros Hn R off v t Rp. rewrite Q. now apply I2.
  Qed.
End SoundPush.
