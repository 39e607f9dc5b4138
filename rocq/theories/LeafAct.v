(** The layers without parameters and state satisfy the layer specifications of LeafSpec.v. *)
From Coq Require Import String Ascii List Arith ZArith Lia Bool.
From Verif Require Import Scalar Sums Tensor TensorLemmas EinsumLemmas Conv Abstract Simple LinearLayer ConvLayer PoolLayer
  Module Spec OpLemmas Jac LeafSpec LeafSimple ReshapeZ.
Import ListNotations.
Local Open Scope nat_scope.
Local Open Scope list_scope.

Section Act.
  Context {K} `{CR : CRing K}.
  Add Ring Kring : (cring : ring_theory n0 n1 nadd nmul nsub nopp (@eq K)).
  Notation gt := (get (@n0 K _)).
  Notation T := (tensor K).

  (** *** activations *)
  Section A.
    Variable a : act K.
    Variables (b : nat) (s : list nat) (x : T).
    Hypothesis (Hb : 0 < b) (Wx : wf x) (Sx : shape x = b :: s).
    Let D : T := mkT [b; numel s] (map (act_d a) (data x)).

    Lemma act_fwd : leaf_forward (Act a) x = Ok (emap (act_fun a) x).
    Proof. reflexivity. Qed.
    Lemma act_deriv_eq : act_deriv a x (emap (act_fun a) x) = emap (act_d a) x.
    Proof. destruct a; cbn; unfold emap; cbn; rewrite ?map_map; reflexivity. Qed.
    Lemma act_jac_diag val : val = None \/ val = Some (emap (act_fun a) x) ->
      act_jacobian a x val Input true = Ok (Some D).
    Proof.
      intros V. unfold act_jacobian, act_forward.
      assert (E : (match val with Some v => Ok v | None => Ok (emap (act_fun a) x) end) = Ok (emap (act_fun a) x))
        by (destruct V as [-> | ->]; reflexivity).
      rewrite E. cbn [bind]. unfold size. cbn [shape emap]. rewrite Sx. cbn [nth_error bind].
      rewrite act_deriv_eq, flat_ok with (s := s) by (try exact Sx; lia). reflexivity.
    Qed.
    Lemma wf_D : wf D.
    Proof. unfold wf, D; cbn [shape data]. rewrite map_length, Wx, Sx, !numel_cons, numel_nil. lia. Qed.
    Lemma gt_D q i : q < b -> i < numel s -> gt D [q; i] = act_d a (fl (numel s) x q i).
    Proof.
      intros Hq Hi. unfold D. rewrite get_mkT2. unfold fl. apply nth_map_ok.
      rewrite Wx, Sx, numel_cons. now apply flat_lt.
    Qed.
    Lemma act_Jeq : Jeq b (numel s) (numel s) (fun q i j => nmul (delta i j) (gt D [q; i])) (leaf_JX (Act a) x).
    Proof. intros q i j Hq Hi Hj. cbn [leaf_JX]. unfold per. rewrite Sx. cbn [tl]. now rewrite gt_D. Qed.
    Lemma act_jac_dense val : val = None \/ val = Some (emap (act_fun a) x) ->
      act_jacobian a x val Input false = Ok (Some (dense b (numel s) (numel s) (leaf_JX (Act a) x))).
    Proof.
      intros V. pose proof (act_jac_diag val V) as E. unfold act_jacobian in *.
      destruct (match val with Some v => Ok v | None => act_forward a x end) as [y|]; cbn [bind] in *; [|discriminate].
      destruct (size 0 y) as [b0|]; cbn [bind] in *; [|discriminate].
      destruct (flat b0 (act_deriv a x y)) as [d|]; cbn [bind] in *; [|discriminate].
      injection E as ->. rewrite diag_embed2 with (b := b) (n := numel s) by reflexivity. cbn [some bind].
      do 2 f_equal. apply tab3_ext. intros q i j Hq Hi Hj. rewrite <- act_Jeq by auto. unfold delta.
      destruct (Nat.eqb i j); ring.
    Qed.
  End A.

  Ltac inst V := destruct V as [-> | ->].

  Lemma act_spec a s s' : leaf_typed (Act a) s s' ->
    leaf_fwd_spec (Act a) s s' /\ leaf_jac_spec (Act a) s s' /\ leaf_vjp_spec (Act a) s s' /\
    leaf_mjp_spec (Act a) s s' /\ leaf_pull_spec (Act a) s s' /\ leaf_jvp_spec (Act a) s s' /\
    leaf_jmp_spec (Act a) s s' /\ leaf_push_spec (Act a) s s'.
  Proof.
    intros (N & N' & ->). repeat match goal with |- _ /\ _ => split end.
    - intros b x Hb Wx Sx. exists (emap (act_fun a) x). repeat split; auto. now apply wf_emap.
    - intros b x y val Hb Wx Sx Fy V. rewrite act_fwd in Fy. injection Fy as <-.
      split; [|destruct V as [-> | ->]; reflexivity]. cbn [leaf_jacobian]. now apply act_jac_dense.
    - intros b x y val Hb Wx Sx Fy V v Wv Sv. rewrite act_fwd in Fy. injection Fy as <-.
      split; [|destruct V as [-> | ->]; reflexivity]. cbn [leaf_vjp].
      erewrite ad_vjp_ok; [|exact (act_jac_diag a b s x Hb Sx _ V)|reflexivity|eauto].
      do 2 f_equal. now apply vJ_Jext, act_Jeq.
    - intros b x y val Hb Wx Sx Fy V r M Hr WM SM. rewrite act_fwd in Fy. injection Fy as <-.
      split; [|destruct V as [-> | ->]; reflexivity]. cbn [leaf_mjp].
      erewrite ad_mjp_ok; [|exact (act_jac_diag a b s x Hb Sx _ V)|reflexivity|eauto].
      do 2 f_equal. now apply MJ_Jext, act_Jeq.
    - intros b x y val Hb Wx Sx Fy V fd td db M F WM SM. rewrite act_fwd in Fy. injection Fy as <-.
      split.
      + cbn [leaf_jTmjp].
        erewrite (ad_jTmjp_ok (act_jacobian a) (act_forward a) x (emap (act_fun a) x) val Input b (numel s) s _
          (act_jac_diag a b s x Hb Sx _ V) (act_jac_diag a b s x Hb Sx _ (or_intror eq_refl)) eq_refl
          (wf_D a b s x Hb Wx Sx) Sx); [|destruct V; auto|exact SM].
        do 2 f_equal. now apply pull_Jext, act_Jeq.
      + cbn. unfold ad_jTmjp. rewrite (size0_x x b s Sx). cbn [bind]. now destruct V as [-> | ->].
    - intros b x y val Hb Wx Sx Fy V. rewrite act_fwd in Fy. injection Fy as <-.
      split; intros v Wv Sv; [|destruct V as [-> | ->]; reflexivity]. cbn [leaf_jvp].
      erewrite ad_jvp_ok; [|exact (act_jac_diag a b s x Hb Sx _ V)|reflexivity|eauto].
      do 2 f_equal. now apply Jv_Jext, act_Jeq.
    - intros b x y val Hb Wx Sx Fy V c Hc. rewrite act_fwd in Fy. injection Fy as <-.
      split; intros M WM SM; [|destruct V as [-> | ->]; reflexivity]. cbn [leaf_jmp].
      erewrite ad_jmp_ok; [|exact (act_jac_diag a b s x Hb Sx _ V)|reflexivity|eauto].
      do 2 f_equal. now apply JM_Jext, act_Jeq.
    - intros b x y val Hb Wx Sx Fy V fd td db F. rewrite act_fwd in Fy. injection Fy as <-.
      split; intros M WM SM.
      + cbn [leaf_jmjTp].
        erewrite (ad_jmjTp_ok (act_jacobian a) (act_forward a) x (emap (act_fun a) x) val Input b (numel s) s _
          (act_jac_diag a b s x Hb Sx _ V) (act_jac_diag a b s x Hb Sx _ (or_intror eq_refl)) eq_refl
          (wf_D a b s x Hb Wx Sx) Sx); [|destruct V; auto|exact SM].
        do 2 f_equal. now apply push_Jext, act_Jeq.
      + cbn. unfold ad_jmjTp. rewrite (size0_x x b s Sx). cbn [bind]. now destruct V as [-> | ->].
  Qed.

  (** *** Flatten and Reshape *)
  Definition is_id (l : leaf K) : Prop := match l with Flatten | Reshape _ => True | _ => False end.
  Lemma id_jac b s (x : T) w val : 0 < b -> shape x = b :: s ->
    id_jacobian x val w false =
    Ok (match w with Input => Some (dense b (numel s) (numel s) (fun _ i j => delta i j)) | _ => None end).
  Proof.
    intros Hb Sx. destruct w; try reflexivity. unfold id_jacobian. rewrite (size0_x x b s Sx). cbn [bind].
    rewrite flat_ok with (s := s) by (try (cbn; exact Sx); lia). cbn [bind].
    rewrite diag_embed2 with (b := b) (n := numel s) by reflexivity. cbn [some bind]. do 2 f_equal.
    apply tab3_ext. intros q i j Hq Hi Hj. rewrite get_mkT2, nth_ones; [reflexivity|].
    rewrite Sx, numel_cons. now apply flat_lt.
  Qed.
  Lemma id_modes_ok b n (M : T) fd td (R : bool -> nat -> nat -> nat -> K) : wf M -> shape M = metric_shape fd b n ->
    (forall q j l, q < b -> j < n -> l < n -> R fd q j l = metric fd M q j l) ->
    id_modes M Input fd td = Ok (Some (present td b n (R fd))).
  Proof.
    intros W S E. destruct fd, td; cbn [metric_shape] in S; cbn [id_modes present].
    - do 2 f_equal. apply (tab2_eq n0); auto. intros q i Hq Hi. rewrite E by auto. unfold metric.
      now rewrite Nat.eqb_refl.
    - rewrite diag_embed2 with (b := b) (n := n) by auto. cbn [some bind]. do 2 f_equal.
      apply tab3_ext. intros. rewrite E by auto. reflexivity.
    - erewrite es_bii_to_bi by sh. cbn [some bind]. do 2 f_equal. apply tab2_ext. intros. rewrite E by auto. reflexivity.
    - do 2 f_equal. apply (tab3_eq n0); auto. intros. rewrite E by auto. reflexivity.
  Qed.

  Lemma id_spec l s s' : is_id l -> leaf_typed l s s' ->
    leaf_fwd_spec l s s' /\ leaf_jac_spec l s s' /\ leaf_vjp_spec l s s' /\
    leaf_mjp_spec l s s' /\ leaf_pull_spec l s s' /\ leaf_jvp_spec l s s' /\
    leaf_jmp_spec l s s' /\ leaf_push_spec l s s'.
  Proof.
    intros I (N & N' & Ty).
    assert (Fw : forall b x, 0 < b -> wf x -> shape x = b :: s ->
              leaf_forward l x = Ok (mkT (b :: s') (data x)) /\ numel s' = numel s).
    { intros b x Hb Wx Sx. destruct l; try destruct I; cbn [leaf_forward].
      - subst s'. unfold flatten_forward. rewrite (size0_x x b s Sx). cbn [bind].
        rewrite flat_ok with (s := s) by (auto; lia). rewrite numel_cons, numel_nil. split; [reflexivity|lia].
      - destruct Ty as [M Nd]. unfold reshape_forward. rewrite (size0_x x b s Sx). cbn [bind].
        split; [|exact Nd]. now apply reshape_z_ok with s. }
    assert (Nn : numel s' = numel s).
    { destruct l; try destruct I; [|now destruct Ty as [_ Ty]]. subst. rewrite numel_cons, numel_nil. lia. }
    assert (JXl : forall x, leaf_JX l x = fun _ i j => delta i j) by (destruct l; try destruct I; reflexivity).
    assert (NP : leaf_n_params l = 0) by (destruct l; try destruct I; reflexivity).
    repeat match goal with |- _ /\ _ => split end.
    - intros b x Hb Wx Sx. destruct (Fw b x Hb Wx Sx) as [-> E]. eexists; repeat split; auto.
      unfold wf; cbn [shape data]. rewrite Wx, Sx, !numel_cons. congruence.
    - intros b x y val Hb Wx Sx Fy V. rewrite NP, Nn, JXl.
      split; destruct l; try destruct I; cbn [leaf_jacobian]; now rewrite id_jac with (b := b) (s := s).
    - intros b x y val Hb Wx Sx Fy V v Wv Sv. rewrite NP, Nn, JXl in *.
      rewrite vJ_delta by auto. split; destruct l; try destruct I; reflexivity.
    - intros b x y val Hb Wx Sx Fy V r M Hr WM SM. rewrite NP, Nn, JXl in *.
      rewrite MJ_delta by auto. split; destruct l; try destruct I; reflexivity.
    - intros b x y val Hb Wx Sx Fy V fd td db M F WM SM. rewrite NP, Nn, JXl in *.
      assert (E : forall f w, f x = Ok y -> id_jTmjp f x val (Some M) w fd td db = id_modes M w fd td).
      { intros f w Ef. unfold id_jTmjp. destruct V as [-> | ->]; [rewrite Ef|]; reflexivity. }
      assert (E2 : id_modes M Input fd td = Ok (Some (pull b (numel s) (numel s) (fun _ i j => delta i j) fd td M))).
      { unfold pull. apply id_modes_ok with (R := fun fd => pull_at (numel s) (fun _ i j => delta i j) (metric fd M)); auto.
        intros. now rewrite pull_at_delta. }
      split; destruct l; try destruct I; cbn [leaf_jTmjp]; rewrite E by auto; auto.
    - intros b x y val Hb Wx Sx Fy V. rewrite NP, Nn, JXl in *.
      split; intros v Wv Sv; [rewrite Jv_delta by auto|]; destruct l; try destruct I; reflexivity.
    - intros b x y val Hb Wx Sx Fy V c Hc. rewrite NP, Nn, JXl in *.
      split; intros M WM SM; [rewrite JM_delta by auto|]; destruct l; try destruct I; reflexivity.
    - intros b x y val Hb Wx Sx Fy V fd td db F. rewrite NP, Nn, JXl in *.
      assert (E2 : forall M, wf M -> shape M = metric_shape fd b (numel s) ->
         id_modes M Input fd td = Ok (Some (push b (numel s) (numel s) (fun _ i j => delta i j) fd td M))).
      { intros M WM SM. unfold push.
        apply id_modes_ok with (R := fun fd => push_at (numel s) (fun _ i j => delta i j) (metric fd M)); auto.
        intros. now rewrite push_at_delta. }
      split; intros M WM SM; destruct l; try destruct I; cbn [leaf_jmjTp]; unfold id_jmjTp; cbn [bind]; auto.
  Qed.

  (** *** L2Norm *)
  Section L2.
    Variables (e : K) (b : nat) (s : list nat) (x : T).
    Hypothesis (Hb : 0 < b) (Wx : wf x) (Sx : shape x = b :: s).
    Let n := numel s.
    Let c q : K := ndiv n1 (nadd (l2_norm n x q) e).
    Let xf : T := mkT [b; n] (data x).
    Lemma l2_xf : flat b x = Ok xf.
    Proof. apply flat_ok; auto; lia. Qed.
    Lemma l2_norm1 : norm1 xf = Ok (tab1 b (l2_norm n x)).
    Proof.
      unfold norm1, unpack2. cbn [shape xf bind]. f_equal. apply tab1_ext. intros q Hq. unfold l2_norm. f_equal.
      apply bsum_ext. intros j Hj. unfold xf. now rewrite !get_mkT2.
    Qed.
    Lemma l2_inv q : q < b -> gt (inv_eps e (tab1 b (l2_norm n x))) [q] = c q.
    Proof.
      intros Hq. unfold inv_eps. rewrite get_emap by (try apply wf_tab; cbn; auto).
      now rewrite get_tab1.
    Qed.
    Lemma l2_fwd : exists y, l2_forward e x = Ok y /\ wf y /\ shape y = b :: s /\
      forall q i, q < b -> i < n -> fl n y q i = nmul (c q) (fl n x q i).
    Proof.
      unfold l2_forward. rewrite (size0_x x b s Sx). cbn [bind]. rewrite l2_xf. cbn [bind].
      rewrite l2_norm1. cbn [bind]. unfold einsum_b_bdots. cbn [shape inv_eps emap tab1 tab]. rewrite Sx, Nat.eqb_refl.
      eexists; split; [reflexivity|]. split; [apply wf_tab|]. split; [reflexivity|].
      intros q i Hq Hi. unfold fl at 1. pose proof (flat_lt b n q i Hq Hi) as L.
      rewrite flat_tab by (rewrite numel_cons; exact L).
      cbn [unravel nth]. replace (numel s) with n by reflexivity.
      destruct (divmod_flat n q i Hi) as [E1 E2]. rewrite E1.
      change (inv_eps e {| shape := [b]; data := map (fun k => l2_norm n x (k / 1)) (seq 0 (numel [b])) |})
        with (inv_eps e (tab1 b (l2_norm n x))).
      rewrite l2_inv by auto. f_equal. unfold get, fl.
      change (q :: unravel s ((q * n + i) mod n)) with ((q :: unravel s ((q * n + i) mod n))).
      rewrite Sx, E2. cbn [ravel]. rewrite ravel_unravel by exact Hi. reflexivity.
    Qed.
    Lemma l2_jac val y : l2_forward e x = Ok y -> val = None \/ val = Some y ->
      l2_jacobian e x val Input = Ok (Some (dense b n n (l2_JX e n x))).
    Proof.
      intros Fy V. unfold l2_jacobian.
      assert (E : (match val with Some v => Ok v | None => l2_forward e x end) = Ok y)
        by (destruct V as [-> | ->]; auto).
      rewrite E. cbn [bind]. rewrite (size0_x x b s Sx). cbn [bind]. rewrite l2_xf. cbn [bind].
      unfold unpack2. cbn [shape xf bind]. fold xf. rewrite l2_norm1. cbn [bind].
      erewrite es_b_bi_to_bi by sh. cbn [bind]. erewrite es_bi_bj_to_bij by sh. cbn [bind].
      unfold tsub. rewrite bop_same by reflexivity. cbn [bind].
      erewrite es_b_bij_to_bij by sh. cbn [some bind]. do 2 f_equal. apply tab3_ext. intros q i j Hq Hi Hj.
      rewrite l2_inv by auto. unfold l2_JX. fold (c q). f_equal.
      rewrite get_tab by (cbn; auto). rewrite get_eye by auto. f_equal.
      rewrite get_tab3, !get_tab2, !l2_inv by auto. unfold fl, xf. now rewrite !get_mkT2.
    Qed.
    Lemma l2_sym q i j : l2_JX e n x q i j = l2_JX e n x q j i.
    Proof. unfold l2_JX. rewrite (delta_sym i j). cbv zeta. ring. Qed.
  End L2.

  Lemma wopt0 {A} (t : A) : wopt 0 t = None. Proof. reflexivity. Qed.

  Lemma l2_spec e s s' : leaf_typed (L2Norm e) s s' ->
    leaf_fwd_spec (L2Norm e) s s' /\ leaf_jac_spec (L2Norm e) s s' /\ leaf_vjp_spec (L2Norm e) s s' /\
    leaf_mjp_spec (L2Norm e) s s' /\ leaf_pull_spec (L2Norm e) s s' /\ leaf_jvp_spec (L2Norm e) s s' /\
    leaf_jmp_spec (L2Norm e) s s' /\ leaf_push_spec (L2Norm e) s s'.
  Proof.
    intros (N & N' & ->).
    assert (JXl : forall b x, shape x = b :: s -> leaf_JX (L2Norm e) x = l2_JX e (numel s) x).
    { intros b x Sx. cbn [leaf_JX]. unfold per. now rewrite Sx. }
    assert (E : forall b m n (J : nat -> nat -> nat -> K), Jeq b m n (fun q i j => gt (dense b m n J) [q; i; j]) J).
    { intros b m n J q i j Hq Hi Hj. unfold dense. now rewrite get_tab3. }
    assert (JJ : forall b x y val, 0 < b -> wf x -> shape x = b :: s -> leaf_forward (L2Norm e) x = Ok y ->
             val = None \/ val = Some y ->
             l2_jacobian e x val Input = Ok (Some (dense b (numel s) (numel s) (l2_JX e (numel s) x)))).
    { intros. eapply l2_jac; eauto. }
    repeat match goal with |- _ /\ _ => split end.
    - intros b x Hb Wx Sx. destruct (l2_fwd e b s x Hb Sx) as (y & Fy & Wy & Sy & _). eauto.
    - intros b x y val Hb Wx Sx Fy V. rewrite (JXl b x Sx).
      split; [|destruct V as [-> | ->]; reflexivity]. cbn [leaf_jacobian]. eauto.
    - intros b x y val Hb Wx Sx Fy V v Wv Sv. rewrite (JXl b x Sx).
      split; [|destruct V as [-> | ->]; reflexivity]. cbn [leaf_vjp].
      erewrite aj_vjp_ok; [|exact (JJ b x y val Hb Wx Sx Fy V)|reflexivity|eauto]. do 2 f_equal. now apply vJ_Jext.
    - intros b x y val Hb Wx Sx Fy V r M Hr WM SM. rewrite (JXl b x Sx).
      split; [|destruct V as [-> | ->]; reflexivity]. cbn [leaf_mjp].
      erewrite aj_mjp_ok; [|exact (JJ b x y val Hb Wx Sx Fy V)|reflexivity|eauto]. do 2 f_equal. now apply MJ_Jext.
    - intros b x y val Hb Wx Sx Fy V fd td db M F WM SM. rewrite (JXl b x Sx).
      split.
      + cbn [leaf_jTmjp]. erewrite aj_jTmjp_sym; [|exact (JJ b x y val Hb Wx Sx Fy V)|reflexivity| |exact F|exact SM].
        * do 2 f_equal. now apply pull_Jext.
        * intros q i j Hq Hi Hj. unfold dense. rewrite !get_tab3 by auto. apply l2_sym.
      + cbn. unfold aj_jTmjp. destruct db; destruct V as [-> | ->]; reflexivity.
    - intros b x y val Hb Wx Sx Fy V. rewrite (JXl b x Sx).
      split; intros v Wv Sv; [|destruct V as [-> | ->]; reflexivity]. cbn [leaf_jvp].
      erewrite aj_jvp_ok; [|exact (JJ b x y val Hb Wx Sx Fy V)|reflexivity|eauto]. do 2 f_equal. now apply Jv_Jext.
    - intros b x y val Hb Wx Sx Fy V c Hc. rewrite (JXl b x Sx).
      split; intros M WM SM; [|destruct V as [-> | ->]; reflexivity]. cbn [leaf_jmp].
      erewrite aj_jmp_ok; [|exact (JJ b x y val Hb Wx Sx Fy V)|reflexivity|eauto]. do 2 f_equal. now apply JM_Jext.
    - intros b x y val Hb Wx Sx Fy V fd td db F. rewrite (JXl b x Sx).
      split; intros M WM SM.
      + cbn [leaf_jmjTp]. erewrite aj_jmjTp_ok; [|exact (JJ b x y val Hb Wx Sx Fy V)|reflexivity|exact F|exact SM].
        do 2 f_equal. now apply push_Jext.
      + cbn. unfold aj_jmjTp. destruct db; destruct V as [-> | ->]; reflexivity.
  Qed.

  (** *** user-defined layers *)
  Lemma custom_spec c s s' : leaf_typed (Custom c) s s' ->
    leaf_fwd_spec (Custom c) s s' /\ leaf_jac_spec (Custom c) s s' /\ leaf_vjp_spec (Custom c) s s' /\
    leaf_mjp_spec (Custom c) s s' /\ (custom_sym c -> leaf_pull_spec (Custom c) s s') /\
    leaf_jvp_spec (Custom c) s s' /\ leaf_jmp_spec (Custom c) s s' /\ leaf_push_spec (Custom c) s s'.
  Proof.
    intros (N & N' & C).
    assert (CC : forall b x y val, 0 < b -> wf x -> shape x = b :: s -> leaf_forward (Custom c) x = Ok y ->
             val = None \/ val = Some y ->
             exists J, wf J /\ shape J = [b; numel s'; numel s] /\ cu_jacobian c x val Input = Ok (Some J) /\
                cu_jacobian c x val Weight = Ok None /\ leaf_JX (Custom c) x = fun q i j => gt J [q; i; j]).
    { intros b x y val Hb Wx Sx Fy V. destruct (C b x Hb Wx Sx) as (y' & J & Fy' & Wy & Sy & WJ & SJ & HJ).
      cbn [leaf_forward] in Fy. rewrite Fy' in Fy. injection Fy as ->.
      exists J. destruct (HJ val V) as [H1 H2]. destruct (HJ None (or_introl eq_refl)) as [H3 _].
      repeat split; auto. cbn [leaf_JX]. now rewrite H3. }
    repeat match goal with |- _ /\ _ => split end.
    - intros b x Hb Wx Sx. destruct (C b x Hb Wx Sx) as (y' & J & Fy' & Wy & Sy & _). eauto.
    - intros b x y val Hb Wx Sx Fy V. destruct (CC b x y val Hb Wx Sx Fy V) as (J & WJ & SJ & HJ & HW & ->).
      cbn [leaf_jacobian leaf_n_params]. rewrite HJ, HW. split; [|reflexivity]. do 2 f_equal.
      now apply (tab3_eq n0).
    - intros b x y val Hb Wx Sx Fy V v Wv Sv. destruct (CC b x y val Hb Wx Sx Fy V) as (J & WJ & SJ & HJ & HW & ->).
      split; cbn [leaf_vjp]; [erewrite aj_vjp_ok by eauto; reflexivity|]. unfold aj_vjp. now rewrite HW.
    - intros b x y val Hb Wx Sx Fy V r M Hr WM SM. destruct (CC b x y val Hb Wx Sx Fy V) as (J & WJ & SJ & HJ & HW & ->).
      split; cbn [leaf_mjp]; [erewrite aj_mjp_ok by eauto; reflexivity|]. unfold aj_mjp. now rewrite HW.
    - intros Sy b x y val Hb Wx Sx Fy V fd td db M F WM SM.
      destruct (CC b x y val Hb Wx Sx Fy V) as (J & WJ & SJ & HJ & HW & ->).
      destruct (Sy x val J b _ _ HJ SJ) as [En Sy']. rewrite En in *.
      split; cbn [leaf_jTmjp]; [erewrite aj_jTmjp_sym; eauto|]. unfold aj_jTmjp.
      destruct db; rewrite HW; reflexivity.
    - intros b x y val Hb Wx Sx Fy V. destruct (CC b x y val Hb Wx Sx Fy V) as (J & WJ & SJ & HJ & HW & ->).
      split; intros v Wv Sv; cbn [leaf_jvp]; [erewrite aj_jvp_ok by eauto; reflexivity|]. unfold aj_jvp. now rewrite HW.
    - intros b x y val Hb Wx Sx Fy V k Hk. destruct (CC b x y val Hb Wx Sx Fy V) as (J & WJ & SJ & HJ & HW & ->).
      split; intros M WM SM; cbn [leaf_jmp]; [erewrite aj_jmp_ok by eauto; reflexivity|]. unfold aj_jmp. now rewrite HW.
    - intros b x y val Hb Wx Sx Fy V fd td db F. destruct (CC b x y val Hb Wx Sx Fy V) as (J & WJ & SJ & HJ & HW & ->).
      split; intros M WM SM; cbn [leaf_jmjTp]; [erewrite aj_jmjTp_ok by eauto; reflexivity|]. unfold aj_jmjTp.
      destruct db; rewrite HW; reflexivity.
  Qed.
End Act.
