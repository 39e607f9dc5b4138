(** One image without a batch dimension: reverse products wrt weight, and forward. *)
From Coq Require Import String Ascii List Arith ZArith Lia Bool.
From Verif Require Import Scalar Sums Tensor TensorLemmas Conv Abstract Simple LinearLayer ConvLayer PoolLayer Module Domain Jac Calls
  LeafSpec TreeBase Frozen ImgSpec ImgProofs.
Import ListNotations.
Local Open Scope nat_scope.
Local Open Scope list_scope.

Section ImgWeight.
  Context {K} `{CR : CRing K}.
  Notation T := (tensor K).
  Ltac fl := repeat first [assumption | apply fails_raise | (apply fails_bind; now apply fails_unpack4) | apply fails_check |
    (apply fails_bind2; intros)].

  Lemma conv_fails cfg W b (x : T) : length (shape x) <> 4 ->
    (forall val, fails (conv_jacobian cfg W b x val Weight)) /\ (forall val v, fails (conv_vjp cfg W b x val v Weight)) /\
    (forall val M, fails (conv_mjp cfg W b x val M Weight)) /\ (forall val M fd td db, fails (conv_jTmjp cfg W b x val M Weight fd td db)).
  Proof.
    intros N.
    assert (M : forall v M, fails (conv_mjp_some cfg W b x v M Weight)) by (intros; unfold conv_mjp_some; fl).
    assert (J : forall val, fails (conv_jacobian cfg W b x val Weight)).
    { intros val. unfold conv_jacobian. apply fails_bind2. intros v _. apply fails_bind2. intros [[[? ?] ?] ?] _. fl. }
    assert (FF : forall v M, fails (conv_jTmjp_w_full cfg W b x v M)) by (intros; unfold conv_jTmjp_w_full; fl).
    repeat split; intros.
    - apply J.
    - unfold conv_vjp. fl.
    - unfold conv_mjp. apply fails_bind2. intros v _. destruct M0; [apply M|apply J].
    - unfold conv_jTmjp. apply fails_bind2. intros v _. destruct (match M0 with Some m => _ | None => _ end) as [m [|]]; destruct td; unfold some.
      + apply fails_bind. unfold conv_jTmjp_w_dd. fl.
      + apply fails_bind. apply fails_bind2. intros d _. apply FF.
      + apply fails_bind. apply fails_bind. apply FF.
      + apply fails_bind. apply FF.
  Qed.
  Lemma ensure_clean (m : module K) s x val s' r : clean m s -> ensure m s x val = (s', r) -> clean m s'.
  Proof.
    intros C E. destruct val; cbn [ensure] in E; [now injection E as <- _|]. pose proof (forward_clean m s x C) as G. now rewrite E in G.
  Qed.
  Lemma step_at h (m : module K) ms ks fma k x : (h = true -> coh_seq ready (m :: ms) ks (skipn k fma) x) ->
    h = false \/ exists s ks' y, ks = s :: ks' /\ fwd m x = Ok y /\ ready m s x /\ fmap2 h fma k = Ok (x, y) /\ coh_seq ready ms ks' (skipn (S k) fma) y.
  Proof. intros R. destruct h; auto. right. apply (fmap2_at m ms). auto. Qed.

  (** *** vjp *)
  Lemma vjp_later ms : forall h fma k ks x v, 0 < k -> cleans clean ms ks -> meets_seq meets ms x -> (h = true -> coh_seq ready ms ks (skipn k fma) x) ->
    fails (snd (seq_vjp_w (K := K) vjp h fma ms ks k v)).
  Proof.
    induction ms as [|m ms IH]; intros h fma k ks x v Hk C M R; [destruct M|]. cbn [seq_vjp_w].
    destruct (cleans_split _ _ _ C) as (s0 & l0 & -> & Cm & Cs). cbn [kid_split].
    destruct (step_at _ _ _ _ _ _ _ R) as [->|(s & ks' & y & E & F & Rm & Fm & Rs)].
    - destruct seq_vjp_w as [ks1 r1]. destruct r1 as [[vs v1]|]; cbn [bind]; [|apply fails_raise]. cbn. apply fails_raise.
    - injection E as <- <-. destruct M as [M|(y' & F' & M)].
      + destruct seq_vjp_w as [ks1 r1]. destruct r1 as [[vs v1]|]; cbn [bind]; [|apply fails_raise]. rewrite Fm. cbn [bind].
        pose proof (vjp_frozen m s0 x y v1 Weight Cm) as Z. destruct (vjp m s0 x (Some y) v1 Weight) as [s1 [vk|]]; [|apply fails_raise]. cbn [fst] in Z. subst s1.
        rewrite (proj2 (Nat.eqb_neq k 0)) by lia. pose proof (vjp_fails m s0 x (Some y) v1 M (or_intror Rm)) as G.
        destruct (vjp m s0 x (Some y) v1 Input) as [s1 r]. cbn [snd] in *. now apply fails_bind.
      + assert (y' = y) by congruence. subst y'. pose proof (IH h fma (S k) l0 y v ltac:(lia) Cs M (fun _ => Rs)) as G. destruct seq_vjp_w as [ks1 r1]. cbn [snd] in G.
        destruct G as [e ->]. apply fails_raise.
  Qed.
  Lemma vjp_w_fails : forall (m : module K) s x val v, clean m s -> meets_late m x -> val = None \/ ready m s x -> fails (snd (vjp m s x val v Weight)).
  Proof.
    refine (module_ind2 (fun m => forall s x val v, clean m s -> meets_late m x -> val = None \/ ready m s x -> fails (snd (vjp m s x val v Weight)))
      (fun ms => match ms with [] => True | m :: _ => forall s x val v, clean m s -> meets_late m x -> val = None \/ ready m s x -> fails (snd (vjp m s x val v Weight)) end) _ _ _ _ I (fun _ _ H _ => H)).
    - intros l s x val v C N _. destruct l; try contradiction. now apply conv_fails.
    - intros c s x val v C [].
    - intros h ms IH s x val v C M R. cbn [vjp wrt_ok]. destruct (ensure _ s x val) as [s' [y|e]] eqn:E; [|apply fails_raise].
      pose proof (ensure_ready _ _ _ _ _ _ R E) as R'. pose proof (ensure_clean _ _ _ _ _ _ C E) as [_ C']. clear R E C.
      assert (G : fails (snd (seq_vjp_w vjp h (st_fm s') ms (st_kids s') 0 v))).
      { destruct ms as [|m ms]; [destruct M|]. cbn [seq_vjp_w]. destruct (cleans_split _ _ _ C') as (s0 & l0 & E0 & Cm & Cs). rewrite E0 in *. cbn [kid_split].
        cbn [ready] in R'. rewrite E0 in R'. destruct (step_at h m ms _ (st_fm s') 0 x R') as [->|(s1 & ks' & z & E & F & Rm & Fm & Rs)].
        - destruct seq_vjp_w as [ks1 r1]. destruct r1 as [[vs v1]|]; cbn [bind]; [|apply fails_raise]. cbn. apply fails_raise.
        - injection E as <- <-. destruct M as [M|(y' & F' & M)].
          + destruct seq_vjp_w as [ks1 r1]. destruct r1 as [[vs v1]|]; cbn [bind]; [|apply fails_raise]. rewrite Fm. cbn [bind].
            pose proof (IH s0 x (Some z) v1 Cm M (or_intror Rm)) as G. destruct (vjp m s0 x (Some z) v1 Weight) as [s1 r]. cbn [snd] in G. destruct G as [e ->]. apply fails_raise.
          + assert (y' = z) by congruence. subst y'. pose proof (vjp_later ms h (st_fm s') 1 l0 z v ltac:(lia) Cs M (fun _ => Rs)) as G. destruct seq_vjp_w as [ks1 r1]. cbn [snd] in G.
            destruct G as [e ->]. apply fails_raise. }
      destruct seq_vjp_w as [ks r]. cbn [snd] in *. now apply fails_bind.
    - intros F IH s x val v C M R. cbn [vjp]. destruct (bind (numel0 x) _) as [[[l t] vt]|e] eqn:E; [|apply fails_raise].
      assert (R' : t = None \/ ready F (st_kid s) x).
      { destruct R as [->|R]; auto. left. destruct (numel0 x) as [n|]; [|discriminate]. cbn [bind val_tail] in E. destruct (slice_from n0 1 n v); [|discriminate]. now injection E. }
      specialize (IH (st_kid s) x t vt ltac:(apply C) M R'). destruct (vjp F (st_kid s) x t vt Weight) as [k r]. cbn [snd] in *. now apply fails_bind.
  Qed.

  (** *** mjp *)
  Lemma mjp_later ms : forall h fma k ks x v, 0 < k -> cleans clean ms ks -> meets_seq meets ms x -> (h = true -> coh_seq ready ms ks (skipn k fma) x) ->
    fails (snd (seq_mjp_w (K := K) mjp h fma ms ks k v)).
  Proof.
    induction ms as [|m ms IH]; intros h fma k ks x v Hk C M R; [destruct M|]. cbn [seq_mjp_w].
    destruct (cleans_split _ _ _ C) as (s0 & l0 & -> & Cm & Cs). cbn [kid_split].
    destruct (step_at _ _ _ _ _ _ _ R) as [->|(s & ks' & y & E & F & Rm & Fm & Rs)].
    - destruct seq_mjp_w as [ks1 r1]. destruct r1 as [[vs v1]|]; cbn [bind]; [|apply fails_raise]. cbn. apply fails_raise.
    - injection E as <- <-. destruct M as [M|(y' & F' & M)].
      + destruct seq_mjp_w as [ks1 r1]. destruct r1 as [[vs v1]|]; cbn [bind]; [|apply fails_raise]. rewrite Fm. cbn [bind].
        pose proof (mjp_frozen m s0 x y v1 Weight Cm) as Z. destruct (mjp m s0 x (Some y) v1 Weight) as [s1 [vk|]]; [|apply fails_raise]. cbn [fst] in Z. subst s1.
        rewrite (proj2 (Nat.eqb_neq k 0)) by lia. pose proof (mjp_fails m s0 x (Some y) v1 M (or_intror Rm)) as G.
        destruct (mjp m s0 x (Some y) v1 Input) as [s1 r]. cbn [snd] in *. now apply fails_bind.
      + assert (y' = y) by congruence. subst y'. pose proof (IH h fma (S k) l0 y v ltac:(lia) Cs M (fun _ => Rs)) as G. destruct seq_mjp_w as [ks1 r1]. cbn [snd] in G.
        destruct G as [e ->]. apply fails_raise.
  Qed.
  Lemma mjp_w_fails : forall (m : module K) s x val v, clean m s -> meets_late m x -> val = None \/ ready m s x -> fails (snd (mjp m s x val v Weight)).
  Proof.
    refine (module_ind2 (fun m => forall s x val v, clean m s -> meets_late m x -> val = None \/ ready m s x -> fails (snd (mjp m s x val v Weight)))
      (fun ms => match ms with [] => True | m :: _ => forall s x val v, clean m s -> meets_late m x -> val = None \/ ready m s x -> fails (snd (mjp m s x val v Weight)) end) _ _ _ _ I (fun _ _ H _ => H)).
    - intros l s x val v C N _. destruct l; try contradiction. now apply conv_fails.
    - intros c s x val v C [].
    - intros h ms IH s x val v C M R. cbn [mjp wrt_ok]. destruct (ensure _ s x val) as [s' [y|e]] eqn:E; [|apply fails_raise].
      pose proof (ensure_ready _ _ _ _ _ _ R E) as R'. pose proof (ensure_clean _ _ _ _ _ _ C E) as [_ C']. clear R E C.
      cbn [bind]. destruct (match v with Some mt => _ | None => _ end) as [mt|]; [|apply fails_raise].
      assert (G : fails (snd (seq_mjp_w mjp h (st_fm s') ms (st_kids s') 0 (Some mt)))).
      { destruct ms as [|m ms]; [destruct M|]. cbn [seq_mjp_w]. destruct (cleans_split _ _ _ C') as (s0 & l0 & E0 & Cm & Cs). rewrite E0 in *. cbn [kid_split].
        cbn [ready] in R'. rewrite E0 in R'. destruct (step_at h m ms _ (st_fm s') 0 x R') as [->|(s1 & ks' & z & E & F & Rm & Fm & Rs)].
        - destruct seq_mjp_w as [ks1 r1]. destruct r1 as [[vs v1]|]; cbn [bind]; [|apply fails_raise]. cbn. apply fails_raise.
        - injection E as <- <-. destruct M as [M|(y' & F' & M)].
          + destruct seq_mjp_w as [ks1 r1]. destruct r1 as [[vs v1]|]; cbn [bind]; [|apply fails_raise]. rewrite Fm. cbn [bind].
            pose proof (IH s0 x (Some z) v1 Cm M (or_intror Rm)) as G. destruct (mjp m s0 x (Some z) v1 Weight) as [s1 r]. cbn [snd] in G. destruct G as [e ->]. apply fails_raise.
          + assert (y' = z) by congruence. subst y'. pose proof (mjp_later ms h (st_fm s') 1 l0 z (Some mt) ltac:(lia) Cs M (fun _ => Rs)) as G. destruct seq_mjp_w as [ks1 r1]. cbn [snd] in G.
            destruct G as [e ->]. apply fails_raise. }
      destruct seq_mjp_w as [ks r]. cbn [snd] in *. now apply fails_bind.
    - intros F IH s x val v C M R. cbn [mjp]. destruct v as [mt|].
      + destruct (bind (numel0 x) _) as [[[l t] vt]|e] eqn:E; [|apply fails_raise].
        assert (R' : t = None \/ ready F (st_kid s) x).
        { destruct R as [->|R]; auto. left. destruct (numel0 x) as [n|]; [|discriminate]. cbn [bind val_tail] in E. destruct (slice_from n0 2 n mt); [|discriminate]. now injection E. }
        specialize (IH (st_kid s) x t (Some vt) ltac:(apply C) M R'). destruct (mjp F (st_kid s) x t (Some vt) Weight) as [k r]. cbn [snd] in *. now apply fails_bind.
      + unfold skip_jacobian. specialize (IH (st_kid s) x val None ltac:(apply C) M R). destruct (mjp F (st_kid s) x val None Weight) as [k r]. cbn [snd] in IH.
        destruct IH as [e ->]. apply fails_raise.
  Qed.
  Lemma jacobian_w_fails (m : module K) s x val : clean m s -> meets_late m x -> val = None \/ ready m s x -> fails (snd (jacobian m s x val Weight)).
  Proof.
    intros C M R. pose proof (mjp_w_fails m s x val None C M R) as G. destruct m as [l| | |]; auto. destruct l; try contradiction. now apply conv_fails.
  Qed.

  (** *** jTmjp *)
  Lemma jTmjp_later ms : forall h fma k ks x v fd td db, 0 < k -> cleans clean ms ks -> meets_seq meets ms x -> (h = true -> coh_seq ready ms ks (skipn k fma) x) ->
    fails (snd (seq_jTmjp_w (K := K) jTmjp h fma ms ks k v fd td db)).
  Proof.
    induction ms as [|m ms IH]; intros h fma k ks x v fd td db Hk C M R; [destruct M|]. cbn [seq_jTmjp_w].
    destruct (cleans_split _ _ _ C) as (s0 & l0 & -> & Cm & Cs). cbn [kid_split].
    destruct (step_at _ _ _ _ _ _ _ R) as [->|(s & ks' & y & E & F & Rm & Fm & Rs)].
    - destruct seq_jTmjp_w as [ks1 r1]. destruct r1 as [[vs v1]|]; cbn [bind]; [|apply fails_raise]. cbn. apply fails_raise.
    - injection E as <- <-. destruct M as [M|(y' & F' & M)].
      + destruct seq_jTmjp_w as [ks1 r1]. destruct r1 as [[vs v1]|]; cbn [bind]; [|apply fails_raise]. rewrite Fm. cbn [bind]. cbv zeta.
        set (fd' := match ms with [] => fd | _ => db end).
        pose proof (jTmjp_frozen m s0 x y v1 Weight fd' td db Cm) as Z. destruct (jTmjp m s0 x (Some y) v1 Weight fd' td db) as [s1 [vk|]]; [|apply fails_raise]. cbn [fst] in Z. subst s1.
        rewrite (proj2 (Nat.eqb_neq k 0)) by lia. pose proof (jTmjp_fails m s0 x (Some y) v1 fd' db db M (or_intror Rm)) as G.
        destruct (jTmjp m s0 x (Some y) v1 Input fd' db db) as [s1 r]. cbn [snd] in *. now apply fails_bind.
      + assert (y' = y) by congruence. subst y'. pose proof (IH h fma (S k) l0 y v fd td db ltac:(lia) Cs M (fun _ => Rs)) as G. destruct seq_jTmjp_w as [ks1 r1]. cbn [snd] in G.
        destruct G as [e ->]. apply fails_raise.
  Qed.
  Lemma jTmjp_w_fails : forall (m : module K) s x val v fd td db, clean m s -> meets_late m x -> val = None \/ ready m s x -> fails (snd (jTmjp m s x val v Weight fd td db)).
  Proof.
    refine (module_ind2 (fun m => forall s x val v fd td db, clean m s -> meets_late m x -> val = None \/ ready m s x -> fails (snd (jTmjp m s x val v Weight fd td db)))
      (fun ms => match ms with [] => True | m :: _ => forall s x val v fd td db, clean m s -> meets_late m x -> val = None \/ ready m s x -> fails (snd (jTmjp m s x val v Weight fd td db)) end) _ _ _ _ I (fun _ _ H _ => H)).
    - intros l s x val v fd td db C N _. destruct l; try contradiction. cbn [jTmjp snd]. apply fails_bind2. intros mt _. apply fails_bind. now apply conv_fails.
    - intros c s x val v fd td db C [].
    - intros h ms IH s x val v fd td db C M R. cbn [jTmjp]. destruct (db_ok fd td db); [|apply fails_raise].
      destruct (ensure _ s x val) as [s' [y|e]] eqn:E; [|apply fails_raise].
      pose proof (ensure_ready _ _ _ _ _ _ R E) as R'. pose proof (ensure_clean _ _ _ _ _ _ C E) as [_ C']. clear R E C.
      cbn [bind]. match goal with |- context [match ?q with Ok _ => _ | Raise _ => _ end] => destruct q as [[mt fd']|] end; [|apply fails_raise].
      assert (G : fails (snd (seq_jTmjp_w jTmjp h (st_fm s') ms (st_kids s') 0 mt fd' td db))).
      { destruct ms as [|m ms]; [destruct M|]. cbn [seq_jTmjp_w]. destruct (cleans_split _ _ _ C') as (s0 & l0 & E0 & Cm & Cs). rewrite E0 in *. cbn [kid_split].
        cbn [ready] in R'. rewrite E0 in R'. destruct (step_at h m ms _ (st_fm s') 0 x R') as [->|(s1 & ks' & z & E & F & Rm & Fm & Rs)].
        - destruct seq_jTmjp_w as [ks1 r1]. destruct r1 as [[vs v1]|]; cbn [bind]; [|apply fails_raise]. cbn. apply fails_raise.
        - injection E as <- <-. destruct M as [M|(y' & F' & M)].
          + destruct seq_jTmjp_w as [ks1 r1]. destruct r1 as [[vs v1]|]; cbn [bind]; [|apply fails_raise]. rewrite Fm. cbn [bind]. cbv zeta.
            set (fd1 := match ms with [] => fd' | _ => db end).
            pose proof (IH s0 x (Some z) v1 fd1 td db Cm M (or_intror Rm)) as G. destruct (jTmjp m s0 x (Some z) v1 Weight fd1 td db) as [s1 r]. cbn [snd] in G. destruct G as [e ->]. apply fails_raise.
          + assert (y' = z) by congruence. subst y'. pose proof (jTmjp_later ms h (st_fm s') 1 l0 z mt fd' td db ltac:(lia) Cs M (fun _ => Rs)) as G. destruct seq_jTmjp_w as [ks1 r1]. cbn [snd] in G.
            destruct G as [e ->]. apply fails_raise. }
      destruct seq_jTmjp_w as [ks r]. cbn [snd] in *. now apply fails_bind.
    - intros F IH s x val v fd td db C M R. cbn [jTmjp]. destruct (db_ok fd td db); [|apply fails_raise].
      destruct (ensure _ s x val) as [s' [y|e]] eqn:E; [|apply fails_raise].
      pose proof (ensure_ready _ _ _ _ _ _ R E) as R'. pose proof (ensure_clean _ _ _ _ _ _ C E) as C'. destruct (bind (Ok y) _) as [[[[[mt fd'] l] t] sub]|e]; [|apply fails_raise].
      specialize (IH (st_kid s') x (Some t) (VT sub) fd' td db ltac:(apply C') M (or_intror R')).
      destruct (jTmjp F (st_kid s') x (Some t) (VT sub) Weight fd' td db) as [k r]. cbn [snd] in *. destruct IH as [e ->]. apply fails_raise.
  Qed.
  Lemma weight_fails (m : module K) hist x c : meets_late m x -> backward c = true -> point c = x -> given_val c = None -> wrt_of c = Weight ->
    exists e, answer m (run m (init m) hist) c = Raise e.
  Proof.
    intros M P <- V W. unfold answer. pose proof (run_clean m hist) as C. revert C. generalize (run m (init m) hist). intros h C.
    destruct c; try discriminate; cbn [point given_val wrt_of] in *; subst; cbn [perform opt_result snd].
    - apply fails_bind, jacobian_w_fails; auto.
    - apply fails_bind, vjp_w_fails; auto.
    - apply fails_bind, mjp_w_fails; auto.
    - apply jTmjp_w_fails; auto.
  Qed.

  (** *** forward *)
  Lemma conv_mode_shape m (x W : T) b st pa di g y : conv2d_mode m x W b st pa di g = Ok y -> exists n c h w c' h' w', shape x = [n; c; h; w] /\ shape y = [n; c'; h'; w'].
  Proof.
    unfold conv2d_mode. destruct (shape x) as [|n [|c1 [|h [|w [|]]]]]; try discriminate. destruct (shape W) as [|c2 [|cg [|kh [|kw [|]]]]]; try discriminate.
    unfold check. destruct ((0 <? g) && _ && _ && _); [|discriminate]. destruct (match b with None => true | Some t => _ end); [|discriminate].
    destruct (pad_ok m h (fst pa) && _); [|discriminate]. destruct (out_len h _ _ _ _) as [h'|]; [|discriminate]. destruct (out_len w _ _ _ _) as [w'|]; [|discriminate].
    intros [= <-]. do 7 eexists. split; reflexivity.
  Qed.
  Lemma pool4_shape cfg (x : T) y i : max_pool4 cfg x = Ok (y, i) -> exists n c h w h' w', shape x = [n; c; h; w] /\ shape y = [n; c; h'; w'].
  Proof.
    unfold max_pool4. destruct (shape x) as [|n [|c1 [|h [|w [|]]]]]; try discriminate.
    destruct (pool_len h _ _ _ _ _) as [h'|]; [|discriminate]. destruct (pool_len w _ _ _ _ _) as [w'|]; [|discriminate].
    destruct (forallb _ _); [|discriminate]. intros [= <- _]. do 6 eexists. split; reflexivity.
  Qed.
  Lemma un_squeeze (y : T) s : shape y = 1 :: s -> unsqueeze0 (squeeze0 y) = y.
  Proof. intros E. destruct y as [sh d]. cbn in *. subst. reflexivity. Qed.
  (** on an image, networks of convolutions, pooling layers and activations compute what they compute on the batch of that image *)
  Lemma image_forward : forall (m : module K) (x : T), image_net m -> length (shape x) = 3 ->
    fwd m x = (y <- fwd m (unsqueeze0 x) ;; Ok (squeeze0 y)) /\
    (forall y, fwd m (unsqueeze0 x) = Ok y -> exists s, shape y = 1 :: s /\ length s = 3).
  Proof.
    refine (module_ind2 (fun m => forall x : T, image_net m -> length (shape x) = 3 ->
        fwd m x = (y <- fwd m (unsqueeze0 x) ;; Ok (squeeze0 y)) /\ (forall y, fwd m (unsqueeze0 x) = Ok y -> exists s, shape y = 1 :: s /\ length s = 3))
      (fun ms => forall x : T, fold_right (fun m p => image_net m /\ p) True ms -> length (shape x) = 3 ->
        fwd_seq ms x = (y <- fwd_seq ms (unsqueeze0 x) ;; Ok (squeeze0 y)) /\ (forall y, fwd_seq ms (unsqueeze0 x) = Ok y -> exists s, shape y = 1 :: s /\ length s = 3)) _ _ _ _ _ _).
    - intros l x N L. rewrite !fwd_Leaf. destruct (shape x) as [|c0 [|h [|w [|]]]] eqn:S; try discriminate. destruct l; try contradiction; cbn [leaf_forward].
      + unfold conv_forward. cbn [unsqueeze0 shape]. rewrite S. split; [reflexivity|]. intros y E. apply conv_mode_shape in E as (n & c1 & h1 & w1 & c' & h' & w' & Sx & Sy).
        cbn in Sx. rewrite S in Sx. injection Sx as <- _ _ _. eexists. split; [exact Sy|reflexivity].
      + unfold act_forward. cbn [bind]. split; [destruct x; reflexivity|]. intros y [= <-]. exists (shape x). rewrite S. split; [|reflexivity]. cbn. now rewrite S.
    - intros c x _ L. rewrite !fwd_Pool. destruct (shape x) as [|c0 [|h [|w [|]]]] eqn:S; try discriminate. unfold max_pool2d. cbn [unsqueeze0 shape]. rewrite S.
      destruct (max_pool4 c _) as [[v i]|] eqn:E; cbn [bind fst]; [|split; [reflexivity|discriminate]]. split; [reflexivity|]. intros y [= <-].
      apply pool4_shape in E as (n & c1 & h1 & w1 & h' & w' & Sx & Sy). cbn in Sx. rewrite S in Sx. injection Sx as <- _ _ _. eexists. split; [exact Sy|reflexivity].
    - intros h ms IH x N L. rewrite !fwd_Seq. now apply IH.
    - intros F IH x [].
    - intros x _ L. cbn. split; [destruct x; reflexivity|]. intros y [= <-]. exists (shape x). auto.
    - intros m ms IHm IHs x [Nm Ns] L. cbn [fwd_seq]. destruct (IHm x Nm L) as [E P]. rewrite E. destruct (fwd m (unsqueeze0 x)) as [y|e] eqn:F; cbn [bind]; [|split; [reflexivity|discriminate]].
      destruct (P y eq_refl) as (s & Sy & Ls). destruct (IHs (squeeze0 y) Ns) as [E1 P1]. { cbn. now rewrite Sy. }
      rewrite (un_squeeze y s Sy) in *. auto.
  Qed.
End ImgWeight.
