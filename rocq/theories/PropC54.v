(** C54 (Upsample in bilinear mode) and the fractional scale factors of C46. *)
From Coq Require Import List Arith ZArith Bool Lia Reals Lra.
From Verif Require Import Scalar Tensor TensorLemmas Conv Abstract PoolLayer Module Spec Domain Smooth LoudSpec UpModes UpExact UpFrac Examples ExamplesR.
Import ListNotations.
Local Open Scope nat_scope.
Local Open Scope list_scope.

(** C54, full claim: the products are derivatives of forward for every scale factor and image.  This holds exactly for
    scale factor 1 and for images of one pixel; everywhere else the products return without an exception and belong to a
    matrix J that is not the derivative. *)
Theorem C54_bilinear_partial : forall s c h w b (x : tensor R),
  0 < s -> 0 < c -> 0 < h -> 0 < w -> 0 < b -> wf x -> shape x = [b; c; h; w] ->
  let m := c * (h * s) * (w * s) in let n := c * h * w in
  exists J y : tensor R, bi_forward s x = Ok y /\ wf J /\ shape J = [b; m; n] /\
    (derivative_at (bi_forward s) x [c; h * s; w * s] J <-> s = 1 \/ (h = 1 /\ w = 1)) /\
    forall val, val = None \/ val = Some y ->
      bi_jacobian s x val Input = Ok (Some J) /\
      (forall v, wf v -> shape v = [b; m] -> bi_vjp s x val v Input = Ok (Some (vJ b m n (entry J) v))) /\
      (forall r M, 0 < r -> wf M -> shape M = [b; r; m] -> bi_mjp s x val (Some M) Input = Ok (Some (MJ b r m n (entry J) M))) /\
      (forall fd td M, wf M -> shape M = metric_shape fd b m ->
         bi_jTmjp s x val (Some M) Input fd td false = Ok (Some (pull b m n (entry J) fd td M))).
Proof. exact bilinear_exact. Qed.
Print Assumptions C54_bilinear_partial.
(** x2 on a row of two pixels: the second output pixel is 3/4 of the first input pixel and 1/4 of the second, but vjp gives
    the whole weight to the first *)
Example C54_case : (exists y, bi_forward 2 (tr [1; 1; 1; 2] [0; 4]%R) = Ok y /\ get 0%R y [0; 0; 0; 1] = 1%R) /\
  bi_vjp 2 (tz [1; 1; 1; 2] [0; 4]%Z) None (tz [1; 8] [0; 1; 0; 0; 0; 0; 0; 0]%Z) Input = Ok (Some (tz [1; 2] [1; 0]%Z)).
Proof.
  split; [|vm_compute; reflexivity]. eexists. split; [reflexivity|]. rewrite get_tab4 by lia. unfold mix, bi_frac.
  change (bi_pos 2 0 mod (2 * 2)) with 0. change (bi_pos 2 1 mod (2 * 2)) with 1. change (bi_lo 2 0) with 0. change (bi_lo 2 1) with 0.
  change (bi_hi 2 1 0) with 0. change (bi_hi 2 2 1) with 1. cbn. change (numel [] + 0 + 0) with 1. cbn. field.
Qed.
Theorem C54_refuted : exists (s : nat) (x J : tensor R), wf x /\ bi_jacobian s x None Input = Ok (Some J) /\
  ~ derivative_at (bi_forward s) x [1; 1 * 2; 2 * 2] J.
Proof.
  exists 2, (tr [1; 1; 1; 2] [0; 4]%R).
  destruct (C54_bilinear_partial 2 1 1 2 1 (tr [1; 1; 1; 2] [0; 4]%R)) as (J & y & _ & _ & _ & D & P); try lia; try reflexivity.
  exists J. split; [reflexivity|]. split; [exact (proj1 (P None (or_introl eq_refl)))|]. intros Q. apply D in Q. destruct Q as [Q|[_ Q]]; discriminate.
Qed.
Print Assumptions C54_refuted.

(** C46: with a factor sn/sd that is not an integer, k its integer part, the products either raise, or return the products
    of a matrix J that is the derivative only for an image of one pixel *)
Theorem C46_fractional_partial : forall sn sd c h w b (x : tensor R) (s : st R) val,
  0 < sd -> sn mod sd <> 0 -> 0 < c -> 0 < h -> 0 < w -> 0 < b -> wf x -> shape x = [b; c; h; w] ->
  let l := Leaf (Upsample sn sd) in let k := sn / sd in let h2 := h * sn / sd in let w2 := w * sn / sd in
  let m := c * h2 * w2 in let n := c * h * w in
  val_ok l x val ->
  (0 < h2 -> 0 < w2 -> exists y, fwd l x = Ok y /\ shape y = [b; c; h2; w2]) /\
  (0 < k -> h2 / k = h -> w2 / k = w ->
     exists J, snd (jacobian l s x val Input) = Ok (Some J) /\ wf J /\ shape J = [b; m; n] /\
       (derivative_at (fwd l) x [c; h2; w2] J <-> h = 1 /\ w = 1) /\
       (forall v, wf v -> shape v = [b; m] -> snd (vjp l s x val v Input) = Ok (Some (vJ b m n (entry J) v))) /\
       (forall r M, wf M -> shape M = [b; r; m] -> snd (mjp l s x val (Some M) Input) = Ok (Some (MJ b r m n (entry J) M))) /\
       (forall fd td db M, wf M -> shape M = metric_shape fd b m ->
          snd (jTmjp l s x val (VT M) Input fd td db) = Ok (VT (pull b m n (entry J) fd td M)))) /\
  (k = 0 \/ h2 / k <> h \/ w2 / k <> w ->
     raises (jacobian l s x val Input) /\
     (forall v, wf v -> shape v = [b; m] -> raises (vjp l s x val v Input)) /\
     (forall r M, 0 < r -> wf M -> shape M = [b; r; m] -> raises (mjp l s x val (Some M) Input)) /\
     (forall fd td db M, wf M -> shape M = metric_shape fd b m -> raises (jTmjp l s x val (VT M) Input fd td db))).
Proof. exact fractional_exact. Qed.
Print Assumptions C46_fractional_partial.
(** 5/2 on 2 x 2 returns a wrong result, on 4 x 4 and with 3/2 on 2 x 2 the calls raise, 5/2 on one pixel is right *)
Example C46_case : 2 * 5 / 2 / (5 / 2) = 2 /\ 4 * 5 / 2 / (5 / 2) <> 4 /\ 2 * 3 / 2 / (3 / 2) <> 2 /\ 1 * 5 / 2 / (5 / 2) = 1 /\
  snd (vjp (Leaf (Upsample 5 2)) st0 (tz [1; 1; 2; 2] [1; 2; 3; 4]%Z) None (tz [1; 25] (repeat 1%Z 25)) Input) = Ok (Some (tz [1; 4] [4; 4; 4; 4]%Z)) /\
  snd (vjp (Leaf (Upsample 3 2)) st0 (tz [1; 1; 2; 2] [1; 2; 3; 4]%Z) None (tz [1; 9] (repeat 1%Z 9)) Input) = Raise RuntimeError.
Proof. repeat split; vm_compute; try reflexivity; discriminate. Qed.
