(** Model of the layers without parameters and without state: activations (nnj/tanh.py, relu.py,
    sigmoid.py, sinusoidal.py, softplus.py, truncexp.py), nnj/flatten.py, nnj/reshape.py and
    nnj/l2norm.py. *)
From Coq Require Import String Ascii List Arith ZArith Lia Bool.
From Verif Require Import Scalar Tensor Abstract.
Import ListNotations.
Local Open Scope nat_scope.
Local Open Scope list_scope.
Local Open Scope string_scope.

Section Simple.
  Context {K} `{Num K}.
  Notation gt := (get (@n0 K _)).
  Notation T := (tensor K).
  Implicit Types x : T. Implicit Types val : option T.

  (** *** Activations *)
  Inductive act := Tanh | ReLU | Sigmoid | Sinusoidal | Softplus (beta threshold : K) | TruncExp.

  Definition sigmoid (a : K) : K := (1 / (1 + nexp (- a)))%K.
  (** x.clamp(-15, 15) *)
  Definition clamp15 (a : K) : K :=
    (if nltb a (- nnat 15) then - nnat 15 else if nltb (nnat 15) a then nnat 15 else a)%K.
  Definition npos (a : K) : K := if nltb n0 a then n1 else n0.

  (** forward of nn.Tanh, nn.ReLU, nn.Sigmoid, nn.Softplus (torch), sinusoidal.py:15-16,
      truncexp.py:14-16 and 32-33, applied to each entry *)
  Definition act_fun (a : act) (v : K) : K :=
    match a with
    | Tanh => ntanh v
    | ReLU => if nltb n0 v then v else n0
    | Sigmoid => sigmoid v
    | Sinusoidal => nsin v
    | Softplus beta thr => if nltb thr (beta * v)%K then v else (nln (1 + nexp (beta * v)) / beta)%K
    | TruncExp => nexp v
    end.
  Definition act_forward (a : act) x : res T := Ok (emap (act_fun a) x).

  (** diag_jacobian before the reshape: tanh.py:26, relu.py:22, sigmoid.py:26, sinusoidal.py:30,
      softplus.py:26, truncexp.py:47.  Tanh, ReLU and Sigmoid read the output, the others the input. *)
  Definition act_deriv (a : act) (x val : T) : T :=
    match a with
    | Tanh => emap (fun v => (1 - v * v)%K) val
    | ReLU => emap npos val
    | Sigmoid => emap (fun v => (v * (1 - v))%K) val
    | Sinusoidal => emap ncos x
    | Softplus beta thr => emap (fun v => sigmoid (beta * v)%K) x
    | TruncExp => emap (fun v => nexp (clamp15 v)) x
    end.
  (** jacobian: tanh.py:15-33, relu.py:15-29, sigmoid.py:15-33, sinusoidal.py:19-37,
      softplus.py:15-33, truncexp.py:36-54 *)
  Definition act_jacobian (a : act) x val w (diag : bool) : res (option T) :=
    match w with
    | Input =>
        val <- match val with Some v => Ok v | None => act_forward a x end ;;
        b <- size 0 val ;;
        d <- flat b (act_deriv a x val) ;;
        if diag then Ok (Some d) else some (diag_embed d)
    | _ => Ok None
    end.

  (** *** Flatten (flatten.py) and Reshape (reshape.py) *)
  (** flatten.py:15-17 *)
  Definition flatten_forward x : res T := b <- size 0 x ;; flat b x.
  (** reshape.py:16-18 *)
  Definition reshape_forward (dims : list Z) x : res T := b <- size 0 x ;; reshape_z (Z.of_nat b :: dims) x.

  (** flatten.py:20-36, reshape.py:21-37 *)
  Definition id_jacobian x val w (diag : bool) : res (option T) :=
    match w with
    | Input =>
        b <- size 0 x ;;
        d <- flat b (ones (shape x)) ;;
        if diag then Ok (Some d) else some (diag_embed d)
    | _ => Ok None
    end.
  (** flatten.py:43-56 and 115-128 (vjp), reshape.py:44-57 and 116-129 *)
  Definition id_jvp x val (vec : T) w : res (option T) :=
    match w with Input => Ok (Some vec) | _ => Ok None end.
  (** flatten.py:59-74 and 131-146 (mjp), reshape.py:60-75 and 132-147 *)
  Definition id_jmp x val (mat : option T) w : res (option T) :=
    match w with
    | Input => match mat with None => Raise NotImplementedError | Some m => Ok (Some m) end
    | _ => Ok None
    end.
  (** the four modes: flatten.py:94-108 and 168-182, reshape.py:95-109 and 169-183 *)
  Definition id_modes (m : T) w (from_diag to_diag : bool) : res (option T) :=
    match w with
    | Input =>
        match from_diag, to_diag with
        | false, false => Ok (Some m)
        | true, false => some (diag_embed m)
        | false, true => some (einsum "bii->bi" [m])
        | true, true => Ok (Some m)
        end
    | _ => Ok None
    end.
  (** flatten.py:77-108, reshape.py:78-109 *)
  Definition id_jmjTp x val (mat : option T) w (from_diag to_diag diag_backprop : bool) : res (option T) :=
    '(m, from_diag) <- match mat with
                       | Some m => Ok (m, from_diag)
                       | None => b <- size 0 x ;; m <- flat b (ones (shape x)) ;; Ok (m, true)
                       end ;;
    id_modes m w from_diag to_diag.
  (** flatten.py:149-182, reshape.py:150-183; [fwd] is the layer's forward *)
  Definition id_jTmjp (fwd : T -> res T) x val (mat : option T) w (from_diag to_diag diag_backprop : bool)
    : res (option T) :=
    val <- match val with Some v => Ok v | None => fwd x end ;;
    '(m, from_diag) <- match mat with
                       | Some m => Ok (m, from_diag)
                       | None => b <- size 0 x ;; m <- flat b (ones (shape val)) ;; Ok (m, true)
                       end ;;
    id_modes m w from_diag to_diag.

  (** *** L2Norm (l2norm.py) *)
  (** torch.norm(x, p=2, dim=1) of a (b, d) matrix *)
  Definition norm1 x : res T :=
    '(b, d) <- unpack2 x ;;
    Ok (tab1 b (fun i => nsqrt (bsum d (fun j => (gt x [i; j] * gt x [i; j])%K)))).
  (** 1.0 / (norm + self.eps) *)
  Definition inv_eps (eps : K) (n : T) : T := emap (fun a => (1 / (a + eps))%K) n.
  (** torch.einsum("b,b...->b...", s, x) *)
  Definition einsum_b_bdots (s x : T) : res T :=
    match shape s, shape x with
    | [b], b' :: _ => if Nat.eqb b b'
                      then Ok (tab (shape x) (fun idx => nmul (gt s [nth 0 idx 0]) (gt x idx)))
                      else Raise RuntimeError
    | _, _ => Raise RuntimeError
    end.
  (** l2norm.py:17-20 *)
  Definition l2_forward (eps : K) x : res T :=
    b <- size 0 x ;; xf <- flat b x ;; n <- norm1 xf ;; einsum_b_bdots (inv_eps eps n) x.
  (** l2norm.py:23-46 with diag=False (the inherited products never pass diag) *)
  Definition l2_jacobian (eps : K) x val w : res (option T) :=
    match w with
    | Input =>
        val <- match val with Some v => Ok v | None => l2_forward eps x end ;;
        b <- size 0 x ;; x <- flat b x ;;
        '(b, d) <- unpack2 x ;;
        n <- norm1 x ;;
        nx <- einsum "b,bi->bi" [inv_eps eps n; x] ;;
        j <- einsum "bi,bj->bij" [nx; nx] ;;
        j <- tsub (eye_repeat b d) j ;;
        some (einsum "b,bij->bij" [inv_eps eps n; j])
    | _ => Ok None
    end.
End Simple.
Arguments act K : clear implicits.
