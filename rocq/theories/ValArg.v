(** val=None and val=model(x) give the same result. *)
From Coq Require Import String Ascii List Arith ZArith Lia Bool.
From Verif Require Import Scalar Sums Tensor TensorLemmas EinsumLemmas Conv Abstract Simple LinearLayer ConvLayer PoolLayer
  Module Calls Spec OpLemmas ReshapeLemmas Jac LeafSpec TreeBase TreeVjp StateCoh StateSim Leaves.
Import ListNotations.
Local Open Scope nat_scope.
Local Open Scope list_scope.

Section Val.
  Context {K} `{CR : CRing K}.
  Notation gt := (get (@n0 K _)).
  Notation T := (tensor K).

  (** *** layers *)
  Lemma custom_val c s s' b (x y : T) w : leaf_typed (Custom c) s s' -> 0 < b -> wf x -> shape x = b :: s -> cu_forward c x = Ok y -> w <> Other ->
    cu_jacobian c x None w = cu_jacobian c x (Some y) w.
  Proof.
    intros (_ & _ & C) Hb Wx Sx Fy Hw. destruct (C b x Hb Wx Sx) as (y' & J & E & _ & _ & _ & _ & H). assert (y' = y) by congruence. subst y'.
    destruct (H None (or_introl eq_refl)) as [A B], (H (Some y) (or_intror eq_refl)) as [A' B']. destruct w; congruence.
  Qed.
  Section LeafVal.
    Variables (l : leaf K) (s s' : list nat) (b : nat) (x y : T) (w : wrt).
    Hypothesis Ty : leaf_typed l s s'.
    Hypothesis Hb : 0 < b.
    Hypothesis Wx : wf x.
    Hypothesis Sx : shape x = b :: s.
    Hypothesis Fy : leaf_forward l x = Ok y.
    Hypothesis Hw : w <> Other.
    Ltac leafs := destruct l; cbn [leaf_forward] in Fy; try reflexivity;
      cbv [leaf_vjp leaf_mjp leaf_jvp leaf_jmp leaf_jacobian leaf_jTmjp leaf_jmjTp lin_vjp lin_mjp lin_jvp lin_jmp lin_jacobian lin_jTmjp lin_jmjTp lin_val
           conv_vjp conv_mjp conv_jvp conv_jmp conv_jacobian conv_jTmjp conv_jmjTp conv_val
           ad_vjp ad_mjp ad_jvp ad_jmp ad_jTmjp ad_jmjTp act_jacobian id_jTmjp l2_jacobian aj_vjp aj_mjp aj_jvp aj_jmp aj_jTmjp aj_jmjTp
           up_vjp up_mjp up_jvp up_jmp up_jacobian up_jTmjp up_jmjTp up_val];
      rewrite ?Fy; try rewrite (custom_val _ s s' b x y w Ty Hb Wx Sx Fy Hw); try reflexivity.
    Lemma leaf_vjp_val v : leaf_vjp l x None v w = leaf_vjp l x (Some y) v w. Proof. leafs. Qed.
    Lemma leaf_mjp_val v : leaf_mjp l x None v w = leaf_mjp l x (Some y) v w. Proof. leafs. Qed.
    Lemma leaf_jvp_val v : leaf_jvp l x None v w = leaf_jvp l x (Some y) v w. Proof. leafs. Qed.
    Lemma leaf_jmp_val v : leaf_jmp l x None v w = leaf_jmp l x (Some y) v w. Proof. leafs. Qed.
    Lemma leaf_jacobian_val : leaf_jacobian l x None w = leaf_jacobian l x (Some y) w. Proof. leafs. Qed.
    Lemma leaf_jTmjp_val v fd td db : leaf_jTmjp l x None v w fd td db = leaf_jTmjp l x (Some y) v w fd td db. Proof. leafs. Qed.
    Lemma leaf_jmjTp_val v fd td db : leaf_jmjTp l x None v w fd td db = leaf_jmjTp l x (Some y) v w fd td db. Proof. leafs. Qed.
  End LeafVal.

  (** *** modules: [h] any state, [h'] a state that describes the forward pass at x *)
  Definition agree {R} (m : module K) s (op : st K -> T -> option T -> st K * R) : Prop :=
    forall b x y h h', 0 < b -> wf x -> shape x = b :: s -> fwd m x = Ok y -> coh m h' x -> snd (op h x None) = snd (op h' x (Some y)).
  Lemma fwd_state (m : module K) x y h : fwd m x = Ok y -> forward m h x = (fst (forward m h x), Ok y).
  Proof. intros Fy. rewrite forward_eta at 1. now rewrite Fy. Qed.
  (** a product that only replaces a missing val by forward(x) *)
  Lemma agree_runs {R} m s s' (op : st K -> T -> option T -> st K * R) : typed m s s' ->
    (forall y, same_m m s (fun h x => op h x (Some y))) ->
    (forall h x y, fwd m x = Ok y -> snd (op h x None) = snd (op (fst (forward m h x)) x (Some y))) -> agree m s op.
  Proof.
    intros Ty S E b x y h h' Hb Wx Sx Fy C. rewrite (E h x y Fy). apply (S y b); auto. now apply (typed_coh BF BPF m s s' Ty b).
  Qed.
  Lemma skip_val ms c c' r b (x y : T) : typed_seq ms (c :: r) (c' :: r) -> 0 < b -> wf x -> shape x = b :: c :: r -> fwd (Skip (Seq true ms)) x = Ok y ->
    exists l t yF, numel0 x = Ok l /\ slice_from n0 1 l y = Ok t /\ fwd (Seq true ms) x = Ok yF.
  Proof.
    intros L Hb Wx Sx Fy. destruct (typed_fwd_y BF BPF _ _ _ b x y (ty_skip _ _ _ _ L) Hb Wx Sx Fy) as [Wy Sy].
    exists (numel (c :: r)). destruct (slice_from_any y (numel (c :: r))) as [t Et]; [unfold rank; rewrite Sy; cbn; lia|].
    rewrite fwd_Skip in Fy. destruct (fwd (Seq true ms) x) as [yF|]; [|discriminate]. exists t, yF. split; auto.
    unfold numel0. rewrite Sx. destruct b; [lia|]. reflexivity.
  Qed.

  Lemma vjp_val m s s' w : typed m s s' -> w <> Other -> forall v, agree m s (fun h x val => vjp m h x val v w).
  Proof.
    intros Ty Hw v. destruct Ty as [l s s' L|cfg s s' P|ms s s' L|ms c c' r L].
    - intros b x y h h' Hb Wx Sx Fy C. exact (leaf_vjp_val l s s' b x y w L Hb Wx Sx Fy Hw v).
    - apply (agree_runs _ s s'); [now constructor|intros y; apply exact_same, (proj1 (vjp_exact BF BPF) _ _ _ (ty_pool _ _ _ P))|].
      intros h x y Fy. cbn [vjp ensure]. destruct w; auto. now rewrite (fwd_state _ _ _ h Fy).
    - apply (agree_runs _ s s'); [now constructor|intros y; apply exact_same, (proj1 (vjp_exact BF BPF) _ _ _ (ty_seq _ _ _ L))|].
      intros h x y Fy. cbn [vjp ensure]. destruct (wrt_ok w); auto. now rewrite (fwd_state _ _ _ h Fy).
    - intros b x y h h' Hb Wx Sx Fy [Kh C]. destruct (skip_val ms c c' r b x y L Hb Wx Sx Fy) as (l & t & yF & El & Et & EF).
      assert (I1 : forall v, snd (vjp (Seq true ms) (st_kid h) x None v w) = snd (vjp (Seq true ms) (st_kid h') x (Some t) v w)).
      { intros v1. transitivity (snd (vjp (Seq true ms) (fst (forward (Seq true ms) (st_kid h) x)) x (Some t) v1 w)).
        - cbn [vjp ensure]. destruct (wrt_ok w); auto. now rewrite (fwd_state _ _ _ (st_kid h) EF).
        - apply (exact_same _ _ _ (proj1 (vjp_exact BF BPF) _ _ _ (ty_seq _ _ _ L) t v1 w) b); auto. now apply (typed_coh BF BPF _ _ _ (ty_seq _ _ _ L) b). }
      remember (Seq true ms) as F. cbn [vjp val_tail]. rewrite El. cbn [bind]. unfold some. rewrite Et. cbn [bind].
      destruct (slice_from n0 1 l v) as [vt|]; [|reflexivity]. cbn [bind]. specialize (I1 vt). destruct (vjp F (st_kid h) x None vt w), (vjp F (st_kid h') x (Some t) vt w).
      cbn [snd] in *. now rewrite I1.
  Qed.

  Lemma mjp_val m s s' w : typed m s s' -> w <> Other -> forall mt, is_skip m = false \/ mt <> None -> agree m s (fun h x val => mjp m h x val mt w).
  Proof.
    intros Ty Hw mt Hk. destruct Ty as [l s s' L|cfg s s' P|ms s s' L|ms c c' r L].
    - intros b x y h h' Hb Wx Sx Fy C. exact (leaf_mjp_val l s s' b x y w L Hb Wx Sx Fy Hw mt).
    - apply (agree_runs _ s s'); [now constructor|intros y; apply exact_same, (proj1 (mjp_exact BF BPF) _ _ _ (ty_pool _ _ _ P))|].
      intros h x y Fy. cbn [mjp]. unfold maxpool_jacobian. cbn [ensure]. destruct mt, w; auto; now rewrite (fwd_state _ _ _ h Fy).
    - apply (agree_runs _ s s'); [now constructor|intros y; apply exact_same, (proj1 (mjp_exact BF BPF) _ _ _ (ty_seq _ _ _ L))|].
      intros h x y Fy. cbn [mjp ensure]. destruct (wrt_ok w); auto. now rewrite (fwd_state _ _ _ h Fy).
    - intros b x y h h' Hb Wx Sx Fy [Kh C]. destruct mt as [mt|]; [|exfalso; destruct Hk as [Hk|Hk]; [discriminate Hk|now apply Hk]].
      destruct (skip_val ms c c' r b x y L Hb Wx Sx Fy) as (l & t & yF & El & Et & EF).
      assert (I1 : forall v, snd (mjp (Seq true ms) (st_kid h) x None (Some v) w) = snd (mjp (Seq true ms) (st_kid h') x (Some t) (Some v) w)).
      { intros v1. transitivity (snd (mjp (Seq true ms) (fst (forward (Seq true ms) (st_kid h) x)) x (Some t) (Some v1) w)).
        - cbn [mjp ensure]. destruct (wrt_ok w); auto. now rewrite (fwd_state _ _ _ (st_kid h) EF).
        - apply (exact_same _ _ _ (proj1 (mjp_exact BF BPF) _ _ _ (ty_seq _ _ _ L) t (Some v1) w) b); auto. now apply (typed_coh BF BPF _ _ _ (ty_seq _ _ _ L) b). }
      remember (Seq true ms) as F. cbn [mjp val_tail]. rewrite El. cbn [bind]. unfold some. rewrite Et. cbn [bind].
      destruct (slice_from n0 2 l mt) as [vt|]; [|reflexivity]. cbn [bind]. specialize (I1 vt). destruct (mjp F (st_kid h) x None (Some vt) w), (mjp F (st_kid h') x (Some t) (Some vt) w).
      cbn [snd] in *. now rewrite I1.
  Qed.
  Lemma jacobian_val m s s' w : typed m s s' -> w <> Other -> is_skip m = false -> agree m s (fun h x val => jacobian m h x val w).
  Proof.
    intros Ty Hw Hk. pose proof (mjp_val m s s' w Ty Hw None (or_introl Hk)) as E. destruct m; try exact E.
    inversion Ty; subst. intros b x y h h' Hb Wx Sx Fy C. now apply (leaf_jacobian_val l s s' b).
  Qed.

  Lemma jvp_val m s s' w : typed m s s' -> w <> Other -> forall v, agree m s (fun h x val => jvp m h x val v w).
  Proof.
    intros Ty Hw v. destruct Ty as [l s s' L|cfg s s' P|ms s s' L|ms c c' r L].
    - intros b x y h h' Hb Wx Sx Fy C. exact (leaf_jvp_val l s s' b x y w L Hb Wx Sx Fy Hw v).
    - intros b x y h h' Hb Wx Sx Fy C. reflexivity.
    - intros b x y h h' Hb Wx Sx Fy C. exact (jvp_same_body ms s (proj2 (jvp_same BF BPF) ms s s' L) None v w b h h' x Hb Wx Sx).
    - intros b x y h h' Hb Wx Sx Fy [Kh C]. destruct (skip_val ms c c' r b x y L Hb Wx Sx Fy) as (l & t & yF & El & Et & EF).
      pose proof (jvp_same_body ms _ (proj2 (jvp_same BF BPF) ms _ _ L) None v w b (st_kid h) (st_kid h') x Hb Wx Sx) as I1.
      change (jvp (Seq true ms) (st_kid h') x None v w) with (jvp (Seq true ms) (st_kid h') x (Some t) v w) in I1.
      remember (Seq true ms) as F. cbn [jvp val_tail]. rewrite El. cbn [bind]. unfold some. rewrite Et. cbn [bind].
      destruct (size 0 x) as [b0|]; [|reflexivity]. cbn [bind]. destruct (jvp F (st_kid h) x None v w), (jvp F (st_kid h') x (Some t) v w).
      cbn [snd] in *. now rewrite I1.
  Qed.
  Lemma jmp_val m s s' w : typed m s s' -> w <> Other -> forall mt, is_skip m = false \/ mt <> None -> agree m s (fun h x val => jmp m h x val mt w).
  Proof.
    intros Ty Hw mt Hk. destruct Ty as [l s s' L|cfg s s' P|ms s s' L|ms c c' r L].
    - intros b x y h h' Hb Wx Sx Fy C. exact (leaf_jmp_val l s s' b x y w L Hb Wx Sx Fy Hw mt).
    - apply (agree_runs _ s s'); [now constructor|intros y; apply (proj1 (jmp_same BF BPF) _ _ _ (ty_pool _ _ _ P))|].
      intros h x y Fy. cbn [jmp]. unfold maxpool_jacobian. cbn [ensure]. destruct mt, w; auto; now rewrite (fwd_state _ _ _ h Fy).
    - intros b x y h h' Hb Wx Sx Fy C. destruct mt as [mt|].
      + exact (jmp_same_body ms s (proj2 (jmp_same BF BPF) ms s s' L) None mt w b h h' x Hb Wx Sx).
      + cbn [jmp]. destruct (wrt_ok w); auto. now apply (jacobian_val _ _ _ w (ty_seq _ _ _ L) Hw eq_refl b).
    - intros b x y h h' Hb Wx Sx Fy [Kh C]. destruct mt as [mt|]; [|exfalso; destruct Hk as [Hk|Hk]; [discriminate Hk|now apply Hk]].
      destruct (skip_val ms c c' r b x y L Hb Wx Sx Fy) as (l & t & yF & El & Et & EF).
      pose proof (jmp_same_body ms _ (proj2 (jmp_same BF BPF) ms _ _ L) None mt w b (st_kid h) (st_kid h') x Hb Wx Sx) as I1.
      change (jmp (Seq true ms) (st_kid h') x None (Some mt) w) with (jmp (Seq true ms) (st_kid h') x (Some t) (Some mt) w) in I1.
      remember (Seq true ms) as F. cbn [jmp val_tail]. rewrite El. cbn [bind]. unfold some. rewrite Et. cbn [bind].
      destruct (size 0 x) as [b0|]; [|reflexivity]. cbn [bind]. destruct (jmp F (st_kid h) x None (Some mt) w), (jmp F (st_kid h') x (Some t) (Some mt) w).
      cbn [snd] in *. now rewrite I1.
  Qed.

  Lemma jTmjp_val m s s' w : typed m s s' -> w <> Other -> forall mt fd td db, agree m s (fun h x val => jTmjp m h x val mt w fd td db).
  Proof.
    intros Ty Hw mt fd td db. destruct (match m with Leaf _ => true | _ => false end) eqn:El.
    - destruct m as [l| | |]; try discriminate. inversion Ty as [? ? ? L| | |]; subst. intros b x y h h' Hb Wx Sx Fy C. cbn [jTmjp snd].
      destruct (to_opt mt); auto. cbn [bind]. now rewrite (leaf_jTmjp_val l s s' b x y w L Hb Wx Sx Fy Hw).
    - apply (agree_runs _ s s'); auto; [intros y; apply exact_same, (proj1 (jTmjp_exact BF BPF) _ _ _ Ty)|].
      intros h x y Fy. destruct m; try discriminate; cbn [jTmjp ensure]; try (destruct (db_ok fd td db); auto); now rewrite (fwd_state _ _ _ h Fy).
  Qed.
  Lemma jmjTp_val m s s' w : typed m s s' -> w <> Other -> forall mt fd td db, agree m s (fun h x val => jmjTp m h x val mt w fd td db).
  Proof.
    intros Ty Hw mt fd td db. destruct (match m with Leaf _ => true | _ => false end) eqn:El.
    - destruct m as [l| | |]; try discriminate. inversion Ty as [? ? ? L| | |]; subst. intros b x y h h' Hb Wx Sx Fy C. cbn [jmjTp snd].
      destruct (to_opt mt); auto. cbn [bind]. now rewrite (leaf_jmjTp_val l s s' b x y w L Hb Wx Sx Fy Hw).
    - apply (agree_runs _ s s'); auto; [intros y; apply (proj1 (jmjTp_same BF BPF) _ _ _ Ty)|].
      intros h x y Fy. destruct m; try discriminate; cbn [jmjTp ensure]; try (destruct (db_ok fd td db); auto); now rewrite (fwd_state _ _ _ h Fy).
  Qed.

  (** *** all methods at once *)
  Lemma call_val m s s' b x y h h' c : typed m s s' -> 0 < b -> wf x -> shape x = b :: s -> fwd m x = Ok y -> coh m h' x ->
    point c = x -> wrt_of c <> Other -> is_skip m = false \/ whole_jacobian c = false ->
    answer m h (pass_val None c) = answer m h' (pass_val (Some y) c).
  Proof.
    intros Ty Hb Wx Sx Fy C Hp Hw Hk. unfold answer. destruct c; cbn [point] in Hp; subst x0; cbn [pass_val perform opt_result snd wrt_of whole_jacobian] in *.
    - now rewrite !forward_pure.
    - now rewrite (jacobian_val m s s' w Ty Hw ltac:(now destruct Hk) b x y h h').
    - now rewrite (jvp_val m s s' w Ty Hw v b x y h h').
    - rewrite (jmp_val m s s' w Ty Hw mat ltac:(destruct Hk; [auto|destruct mat; [right|]; discriminate]) b x y h h'); auto.
    - now rewrite (jmjTp_val m s s' w Ty Hw mat fd td db b x y h h').
    - now rewrite (vjp_val m s s' w Ty Hw v b x y h h').
    - rewrite (mjp_val m s s' w Ty Hw mat ltac:(destruct Hk; [auto|destruct mat; [right|]; discriminate]) b x y h h'); auto.
    - now rewrite (jTmjp_val m s s' w Ty Hw mat fd td db b x y h h').
  Qed.

  (** every call at x keeps the state describing the forward pass at x *)
  Lemma perform_keeps m s s' b x h c : typed m s s' -> 0 < b -> wf x -> shape x = b :: s -> point c = x -> coh m h x -> coh m (fst (perform m h c)) x.
  Proof.
    intros Ty Hb Wx Sx Hp C. destruct c; cbn [point] in Hp; subst x0; cbn [perform opt_result fst].
    - now apply (typed_coh BF BPF m s s' Ty b).
    - now apply (jacobian_keeps BF BPF m s s' Ty val w b).
    - now apply (proj1 (jvp_keeps BF BPF) m s s' Ty val v w b).
    - now apply (proj1 (jmp_keeps BF BPF) m s s' Ty val mat w b).
    - now apply (proj1 (jmjTp_keeps BF BPF) m s s' Ty val mat w fd td db b).
    - now apply (proj1 (vjp_keeps BF BPF) m s s' Ty val v w b).
    - now apply (proj1 (mjp_keeps BF BPF) m s s' Ty val mat w b).
    - now apply (proj1 (jTmjp_keeps BF BPF) m s s' Ty val mat w fd td db b).
  Qed.
  Lemma run_keeps m s s' b x cs : typed m s s' -> 0 < b -> wf x -> shape x = b :: s -> Forall (fun c => point c = x) cs ->
    forall h, coh m h x -> coh m (run m h cs) x.
  Proof.
    intros Ty Hb Wx Sx. unfold run. induction 1 as [|c cs Hc Hcs IH]; intros h C; auto. cbn [fold_left]. apply IH. now apply (perform_keeps m s s' b x h c).
  Qed.
  Lemma history_val m s s' b x y hist cs c h h' : typed m s s' -> 0 < b -> wf x -> shape x = b :: s -> fwd m x = Ok y ->
    Forall (fun c => point c = x) cs -> point c = x -> wrt_of c <> Other -> is_skip m = false \/ whole_jacobian c = false ->
    answer m (run m h (hist ++ Forward x :: cs)) (pass_val (Some y) c) = answer m h' (pass_val None c).
  Proof.
    intros Ty Hb Wx Sx Fy Hcs Hp Hw Hk. symmetry. apply (call_val m s s' b x y); auto. unfold run. rewrite fold_left_app. cbn [fold_left].
    apply (run_keeps m s s' b x cs Ty Hb Wx Sx Hcs). cbn [perform fst]. now apply (typed_coh BF BPF m s s' Ty b).
  Qed.
End Val.
