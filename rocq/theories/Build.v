(** The constructors of nnj: from the arguments a user writes to the modules of Module.v, with the exceptions that the constructors
    raise.  Parameters are initialised at random by torch; here by arbitrary functions of the index. *)
From Coq Require Import String List Arith ZArith Lia Bool.
From Verif Require Import Scalar Tensor Conv Abstract Simple LinearLayer ConvLayer PoolLayer Module.
Import ListNotations.
Local Open Scope nat_scope.
Local Open Scope list_scope.

(** an int or a pair of ints; torch's _pair (called by nn.Conv2d, conv2d.py:29; maxpool2d.py:17-25) *)
Inductive size2 := One (n : nat) | Two (n m : nat).
Definition pair_of (a : size2) : nat * nat := match a with One n => (n, n) | Two n m => (n, m) end.
(** padding may also be a string (conv2d.py:22) *)
Inductive pad_arg := PadSize (p : size2) | PadStr (s : string).
(** the arguments of Conv2d: conv2d.py:16-28.  Negative numbers are not modelled *)
Record conv_args := { a_in : nat; a_out : nat; a_kernel : size2; a_stride : size2; a_padding : pad_arg; a_dilation : size2;
  a_groups : nat; a_bias : bool; a_mode : pmode; a_vmap : bool }.
(** the defaults of conv2d.py:21-27 *)
Definition conv_default (i o : nat) (k : size2) : conv_args :=
  {| a_in := i; a_out := o; a_kernel := k; a_stride := One 1; a_padding := PadSize (One 0); a_dilation := One 1;
     a_groups := 1; a_bias := true; a_mode := PZeros; a_vmap := true |}.

Section Build.
  Context {K} `{Num K}.
  Notation T := (tensor K).

  (** what a user writes: linear.py:10, conv2d.py:16-28, maxpool2d.py:11, upsample.py:11 (scale_factor = sn/sd), the activations, flatten.py:10,
      reshape.py:10, l2norm.py:12, sequential.py:10, skipconnection.py:11.  [Foreign] is a module that is not from nnj, such as nn.Dropout *)
  Inductive expr :=
  | ELinear (i o : nat) (bias : bool) (w v : list nat -> K)
  | EConv (a : conv_args) (w v : list nat -> K)
  | EPool (k : size2) (s : option size2) (p d : size2) (ceil : bool)
  | EUpsample (sn sd : nat)
  | EAct (a : act K)
  | EFlatten
  | EReshape (dims : list Z)
  | EL2Norm (e : K)
  | ESeq (hooks : bool) (es : list expr)
  | ESkip (hooks : bool) (es : list expr)
  | Foreign.

  (** linear.py:10-12, nn.Linear *)
  Definition make_linear (i o : nat) (bias : bool) (w v : list nat -> K) : module K :=
    Leaf (Linear (tab [o; i] w) (if bias then Some (tab [o] v) else None)).
  (** conv2d.py:29-43: the checks of nn.Conv2d.__init__, then dw_padding (self.padding[0] is a letter when padding is a string, and
      an int minus a str is a TypeError), then the check of the stride *)
  Definition make_conv (a : conv_args) (w v : list nat -> K) : res (module K) :=
    check (0 <? a_groups a) ValueError
    (check (a_in a mod a_groups a =? 0) ValueError
    (check (a_out a mod a_groups a =? 0) ValueError
    (match a_padding a with
     | PadStr s =>
         if String.eqb s "same" then check ((fst (pair_of (a_stride a)) =? 1) && (snd (pair_of (a_stride a)) =? 1)) ValueError (Raise TypeError)
         else if String.eqb s "valid" then Raise TypeError else Raise ValueError
     | PadSize p =>
         check ((fst (pair_of (a_stride a)) =? 1) && (snd (pair_of (a_stride a)) =? 1)) ValueError
         (Ok (Leaf (Conv2d {| cstride := pair_of (a_stride a); cpad := pair_of p; cdil := pair_of (a_dilation a);
                              cgroups := a_groups a; cmode := a_mode a; cvmap := a_vmap a |}
                           (tab [a_out a; a_in a / a_groups a; fst (pair_of (a_kernel a)); snd (pair_of (a_kernel a))] w)
                           (if a_bias a then Some (tab [a_out a] v) else None))))
     end))).
  (** maxpool2d.py:11-14, nn.MaxPool2d: the stride is the kernel size unless given *)
  Definition make_pool (k : size2) (s : option size2) (p d : size2) (ceil : bool) : module K :=
    MaxPool {| pk := pair_of k; ps := pair_of (match s with Some s => s | None => k end); pp := pair_of p; pd := pair_of d; pceil := ceil |}.

  (** sequential.py:15-19: every layer must have _n_params *)
  Fixpoint all_nnj (ms : list (option (module K))) : res (list (module K)) :=
    match ms with
    | [] => Ok []
    | None :: _ => Raise AttributeError
    | Some m :: ms => l <- all_nnj ms ;; Ok (m :: l)
    end.
  (** None: a module that is not from nnj.  The arguments of sequential.py:10 and skipconnection.py:11 are evaluated first, from left to right *)
  Section Args.
    Variable build : expr -> res (option (module K)).
    Fixpoint build_all (es : list expr) : res (list (option (module K))) :=
      match es with
      | [] => Ok []
      | e :: es => m <- build e ;; ms <- build_all es ;; Ok (m :: ms)
      end.
  End Args.
  Fixpoint build (e : expr) : res (option (module K)) :=
    match e with
    | ELinear i o bias w v => Ok (Some (make_linear i o bias w v))
    | EConv a w v => m <- make_conv a w v ;; Ok (Some m)
    | EPool k s p d ceil => Ok (Some (make_pool k s p d ceil))
    | EUpsample sn sd => Ok (Some (Leaf (Upsample sn sd)))
    | EAct a => Ok (Some (Leaf (Act a)))
    | EFlatten => Ok (Some (Leaf Flatten))
    | EReshape dims => Ok (Some (Leaf (Reshape dims)))
    | EL2Norm e => Ok (Some (Leaf (L2Norm e)))
    (* sequential.py:10-29 *)
    | ESeq h es => ms <- build_all build es ;; ms <- all_nnj ms ;; Ok (Some (Seq h ms))
    (* skipconnection.py:11-15 *)
    | ESkip h es => ms <- build_all build es ;; ms <- all_nnj ms ;; Ok (Some (Skip (Seq h ms)))
    | Foreign => Ok None
    end.
End Build.
Arguments expr K : clear implicits.
