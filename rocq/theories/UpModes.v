(** nn.Upsample(scale_factor = s, mode='bilinear'), s an integer, align_corners left at its default False.
    The product methods of upsample.py (lines 16-286) never read self.mode: they call self.forward when val is
    None, look at the shapes, and convolve with ones.  So they are the methods of PoolLayer.v with another forward.
    Simplification: the modes 'bicubic' and 'nearest-exact', align_corners=True and size= are not modelled;
    'linear' and 'trilinear' take other ranks. *)
From Coq Require Import List Arith Bool.
From Verif Require Import Scalar Tensor Conv Abstract Simple PoolLayer Module.
Import ListNotations.
Local Open Scope nat_scope.

Section Bilinear.
  Context {K} `{Num K}.
  Notation gt := (get (@n0 K _)).
  Notation T := (tensor K).
  Variable s : nat.
  Implicit Types x : T. Implicit Types val : option T.

  (** torch, area_pixel_compute_source_index: output pixel y reads the input at (y + 1/2) / s - 1/2, cut off at 0;
      here in units of 1 / (2 s) *)
  Definition bi_pos (y : nat) : nat := 2 * y + 1 - s.
  (** the two neighbours along an axis of length n, and the weight of the second *)
  Definition bi_lo (y : nat) : nat := bi_pos y / (2 * s).
  Definition bi_hi (n y : nat) : nat := Nat.min (bi_lo y + 1) (n - 1).
  Definition bi_frac (y : nat) : K := ndiv (nnat (bi_pos y mod (2 * s))) (nnat (2 * s)).
  Definition mix (l a c : K) : K := nadd (nmul (nsub n1 l) a) (nmul l c).

  (** nn.Upsample.forward, called at upsample.py:25, 92, 130, 168, 207 *)
  Definition bi_forward x : res T :=
    match shape x with
    | [b; c; h; w] =>
        check ((0 <? s) && (0 <? h) && (0 <? w)) RuntimeError
        (Ok (tab4 b c (h * s) (w * s) (fun q o y z =>
           mix (bi_frac y)
             (mix (bi_frac z) (gt x [q; o; bi_lo y; bi_lo z]) (gt x [q; o; bi_lo y; bi_hi w z]))
             (mix (bi_frac z) (gt x [q; o; bi_hi h y; bi_lo z]) (gt x [q; o; bi_hi h y; bi_hi w z])))))
    | _ => Raise RuntimeError
    end.
  Definition bi_val x val : res T := match val with Some v => Ok v | None => bi_forward x end.
  (** upsample.py:16-35 *)
  Definition bi_jacobian x val w : res (option T) :=
    match w with Input => y <- bi_val x val ;; up_jacobian s 1 x (Some y) Input | _ => Ok None end.
  (** upsample.py:118-151 *)
  Definition bi_vjp x val (vec : T) w : res (option T) :=
    match w with Input => y <- bi_val x val ;; up_vjp s 1 x (Some y) vec Input | _ => Ok None end.
  (** upsample.py:154-190 *)
  Definition bi_mjp x val (mat : option T) w : res (option T) :=
    match mat with
    | None => bi_jacobian x val w
    | Some _ => match w with Input => y <- bi_val x val ;; up_mjp s 1 x (Some y) mat Input | _ => Ok None end
    end.
  (** upsample.py:193-286 *)
  Definition bi_jTmjp x val (mat : option T) w (from_diag to_diag diag_backprop : bool) : res (option T) :=
    y <- bi_val x val ;; up_jTmjp s 1 x (Some y) mat w from_diag to_diag diag_backprop.
End Bilinear.
