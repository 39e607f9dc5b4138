(** Model of nnj/conv2d.py. *)
From Coq Require Import String Ascii List Arith ZArith Lia Bool.
From Verif Require Import Scalar Tensor Conv Abstract.
Import ListNotations.
Local Open Scope nat_scope.
Local Open Scope list_scope.
Local Open Scope string_scope.

(** The attributes nn.Conv2d keeps besides weight and bias.  kernel_size is read off the weight's
    shape (nn.Conv2d creates the weight with it). *)
Record conv_cfg := {
  cstride : nat * nat; cpad : nat * nat; cdil : nat * nat; cgroups : nat; cmode : pmode;
  cvmap : bool  (* use_vmap_for_backprop *)
}.

(** conv2d.py:11-12 *)
Definition compute_reversed_padding (padding kernel_size : nat) : Z :=
  (Z.of_nat kernel_size - 1 - Z.of_nat padding)%Z.

(** conv2d.py:16-41: the constructor refuses strides other than (1, 1) *)
Definition conv_init_ok (cfg : conv_cfg) : res unit :=
  if ((fst (cstride cfg) =? 1) && (snd (cstride cfg) =? 1))%nat then Ok tt else Raise ValueError.

Section Conv2d.
  Context {K} `{Num K}.
  Notation gt := (get (@n0 K _)).
  Notation T := (tensor K).
  Variables (cfg : conv_cfg) (W : T) (bias : option T).
  Implicit Types x : T. Implicit Types val : option T.

  (** conv2d.py:36 (self._n_params); bias has out_channels entries *)
  Definition conv_n_params : nat :=
    numel (shape W) + match bias with Some _ => dim W 0 | None => 0 end.
  Definition kh : nat := dim W 2.
  Definition kw : nat := dim W 3.
  (** conv2d.py:33-35 *)
  Definition dw_padding : Z * Z :=
    (compute_reversed_padding (fst (cpad cfg)) kh, compute_reversed_padding (snd (cpad cfg)) kw).

  (** nn.Conv2d.forward: F.pad with the mode then conv, or zero padding; a single image (c, h, w) is accepted *)
  Definition conv_forward x : res T :=
    match shape x with
    | [_; _; _] => y <- conv2d_mode (cmode cfg) (unsqueeze0 x) W bias (cstride cfg) (cpad cfg) (cdil cfg) (cgroups cfg) ;;
                   Ok (squeeze0 y)
    | _ =>
    conv2d_mode (cmode cfg) x W bias (cstride cfg) (cpad cfg) (cdil cfg) (cgroups cfg)
    end.
  Definition conv_val x val : res T := match val with Some v => Ok v | None => conv_forward x end.

  (** F.conv2d(..., bias=None, stride=self.stride, padding=self.dw_padding, ...) *)
  Definition dw_conv (a w : T) : res T :=
    conv2d a w None (cstride cfg) dw_padding (cdil cfg) (cgroups cfg).
  (** F.conv_transpose2d(..., output_padding=self.output_padding): output_padding is 0 in nn.Conv2d *)
  Definition tr_conv (a w : T) : res T :=
    conv_transpose2d a w (cstride cfg) (cpad cfg) (cdil cfg) (cgroups cfg).

  (** for i in range(b): acc[i, ...] = f i *)
  Definition loop_rows (b : nat) (s : list nat) (f : nat -> res T) : res T :=
    fold_left (fun acc i => acc <- acc ;; r <- f i ;; set0 n0 i r acc) (seq 0 b) (Ok (zeros (b :: s))).

  (** t[i : i + 1, ...] and t[:, i : i + 1, ...] *)
  Definition row0 (i : nat) (t : T) : res T := slice n0 0 i (i + 1) t.
  Definition row1 (i : nat) (t : T) : res T := slice n0 1 i (i + 1) t.

  (** conv2d.py:157-245 *)
  Definition conv_vjp x val (vec : T) w : res (option T) :=
    val <- conv_val x val ;;
    '(b, c1, h1, w1) <- unpack4 x ;;
    '(_, c2, h2, w2) <- unpack4 val ;;
    check (shape_eqb (shape vec) [b; c2 * h2 * w2]) AssertionError
    (match w with
     | Input =>
         vec <- reshape [b; c2; h2; w2] vec ;;
         r <- tr_conv vec W ;;
         some (reshape [b; c1 * h1 * w1] r)
     | Weight =>
         bt <- reshape [b; c2; h2; w2] vec ;;
         b_term <- (match bias with Some _ => einsum "bchw->bc" [bt] | None => Ok bt end) ;;
         vec <- reshape [b; c2; h2; w2] vec ;;
         let vec := flip n0 [-2; -1]%Z vec in
         vector_J <-
           (if cvmap cfg then
              let reversed := flip n0 [-2; -1]%Z x in
              vmap2 n0 n0 n0 (fun xi vi =>
                let rx := movedim n0 [0%Z] [1%Z] (unsqueeze0 xi) in
                let vi := movedim n0 [0%Z] [1%Z] (unsqueeze0 vi) in
                vi <- reshape_1m [1; h2; w2] vi ;;
                r <- dw_conv vi rx ;;
                reshape [c2 * c1 * kh * kw] r) reversed vec
            else
              let vec := movedim n0 [0%Z] [1%Z] vec in
              loop_rows b [c2 * c1 * kh * kw] (fun i =>
                xi <- row0 i x ;;
                let rx := movedim n0 [0%Z] [1%Z] (flip n0 [-2; -1]%Z xi) in
                vi <- row1 i vec ;;
                vi <- reshape_1m [1; h2; w2] vi ;;
                r <- dw_conv vi rx ;;
                reshape [c2 * c1 * kh * kw] r)) ;;
         match bias with
         | None => Ok (Some vector_J)
         | Some _ => some (cat n0 1 [vector_J; b_term])
         end
     | Other => Ok None
     end).

  (** the body shared by the vmap function (conv2d.py:305-324) and the loop (:338-354): one sample of
      the matrix (c2, 1, h2, w2, rows) against the reversed input (c1, 1, h1, w1) *)
  Definition conv_mjp_single (c1 c2 h2 w2 rows : nat) (m rx : T) : res T :=
    m <- reshape_1m [1; h2; w2] (movedim n0 [1; 2; 3]%Z [-3; -2; -1]%Z m) ;;
    r <- dw_conv m rx ;;
    r <- reshape [c2; rows; c1; kh; kw] r ;;
    reshape [c2 * c1 * kh * kw; rows] (movedim n0 [-3; -2; -1]%Z [1; 2; 3]%Z r).

  (** conv2d.py:248-364 with a given matrix and value *)
  Definition conv_mjp_some x (val m : T) w : res (option T) :=
    '(b, c1, h1, w1) <- unpack4 x ;;
    '(_, c2, h2, w2) <- unpack4 val ;;
    rows <- size 1 m ;;
    check (shape_eqb (shape m) [b; rows; c2 * h2 * w2]) AssertionError
    (match w with
     | Input =>
         mr <- reshape [b; c2; h2; w2; rows] (movedim n0 [-1]%Z [-2]%Z m) ;;
         a <- reshape_1m [c2; h2; w2] (movedim n0 [1; 2; 3]%Z [-3; -2; -1]%Z mr) ;;
         r <- tr_conv a W ;;
         r <- reshape [b; rows; c1; h1; w1] r ;;
         r <- reshape [b; c1 * h1 * w1; rows] (movedim n0 [-3; -2; -1]%Z [1; 2; 3]%Z r) ;;
         Ok (Some (movedim n0 [1%Z] [2%Z] r))
     | Weight =>
         mr <- reshape [b; c2; h2; w2; rows] (movedim n0 [-1]%Z [-2]%Z m) ;;
         let mT := flip n0 [-3; -2]%Z mr in
         matrix_J <-
           (if cvmap cfg then
              let reversed := flip n0 [-2; -1]%Z x in
              vmap2 n0 n0 n0 (fun xi mi =>
                conv_mjp_single c1 c2 h2 w2 rows
                  (movedim n0 [0%Z] [1%Z] (unsqueeze0 mi)) (movedim n0 [0%Z] [1%Z] (unsqueeze0 xi)))
                reversed mT
            else
              let mT := movedim n0 [0%Z] [1%Z] mT in
              loop_rows b [c2 * c1 * kh * kw; rows] (fun i =>
                xi <- row0 i x ;;
                let rx := movedim n0 [0%Z] [1%Z] (flip n0 [-2; -1]%Z xi) in
                mi <- row1 i mT ;;
                conv_mjp_single c1 c2 h2 w2 rows mi rx)) ;;
         let matrix_J := movedim n0 [-1]%Z [-2]%Z matrix_J in
         match bias with
         | None => Ok (Some matrix_J)
         | Some _ =>
             (* matrix.reshape(b, -1, c2, h2, w2): -1 is the number of rows; torch cannot infer it
                when the other sizes multiply to 0 *)
             check (negb (Nat.eqb (b * c2 * h2 * w2) 0)) RuntimeError
             (bt <- reshape [b; rows; c2; h2; w2] m ;;
              b_term <- einsum "bvchw->bvc" [bt] ;;
              some (cat n0 2 [matrix_J; b_term]))
         end
     | Other => Ok None
     end).

  (** conv2d.py:44-57 *)
  Definition conv_jacobian x val w : res (option T) :=
    val <- conv_val x val ;;
    '(b, c2, h2, w2) <- unpack4 val ;;
    id <- diag_embed (ones [b; c2 * h2 * w2]) ;;
    conv_mjp_some x val id w.
  (** conv2d.py:248-364 *)
  Definition conv_mjp x val (mat : option T) w : res (option T) :=
    val <- conv_val x val ;;
    match mat with
    | None => conv_jacobian x (Some val) w
    | Some m => conv_mjp_some x val m w
    end.

  (** conv2d.py:64-80 *)
  Definition conv_jvp x val (vec : T) w : res (option T) :=
    match w with Other => Ok None | _ => Raise NotImplementedError end.
  (** conv2d.py:83-101 *)
  Definition conv_jmp x val (mat : option T) w : res (option T) :=
    match mat with
    | None => conv_jacobian x val w
    | Some _ => match w with Other => Ok None | _ => Raise NotImplementedError end
    end.
  (** conv2d.py:104-150 *)
  Definition conv_jmjTp x val (mat : option T) w (from_diag to_diag diag_backprop : bool) : res (option T) :=
    _ <- conv_val x val ;;
    match w with Other => Ok None | _ => Raise NotImplementedError end.

  (** conv2d.py:386-392, full -> full with respect to the input *)
  Definition conv_jTmjp_in_full x (val m : T) : res T :=
    m <- conv_mjp_some x val m Input ;; m <- need m ;;
    m <- conv_mjp_some x val (movedim n0 [-2]%Z [-1]%Z m) Input ;; m <- need m ;;
    Ok (movedim n0 [-2]%Z [-1]%Z m).
  (** conv2d.py:407-429, diag -> diag with respect to the input *)
  Definition conv_jTmjp_in_dd x (val m : T) : res T :=
    '(b, c1, h1, w1) <- unpack4 x ;;
    '(_, c2, h2, w2) <- unpack4 val ;;
    m <- reshape [b; c2; h2; w2] m ;;
    a <- reshape_1m [c2; h2; w2] (movedim n0 [1; 2; 3]%Z [-3; -2; -1]%Z m) ;;
    r <- tr_conv a (sq W) ;;
    r <- reshape [b; c1; h1; w1] r ;;
    reshape [b; c1 * h1 * w1] (movedim n0 [-3; -2; -1]%Z [1; 2; 3]%Z r).

  (** one of the two halves of the per-sample full -> full weight product (conv2d.py:452-472 and
      480-499): [m] is (rows, c2*h2*w2) already moved to (c2, 1, h2, w2, rows) and flipped *)
  Definition conv_half (c1 c2 h2 w2 rows : nat) (rx m : T) : res T :=
    r <- conv_mjp_single c1 c2 h2 w2 rows m rx ;;
    match bias with
    | None => Ok r
    | Some _ => mb <- reshape_m1 [c2; h2; w2] m ;;
                b_term <- einsum "chwv->cv" [mb] ;;
                cat n0 0 [r; b_term]
    end.
  (** conv2d.py:441-501 and 507-567: one sample; [xi] is (1, c1, h1, w1), [mi] is (1, n, n) *)
  Definition conv_full_single (c1 c2 h2 w2 : nat) (xi mi : T) : res T :=
    let rows := c2 * h2 * w2 in
    let rx := movedim n0 [0%Z] [1%Z] (flip n0 [-2; -1]%Z xi) in
    m <- reshape [1; c2; h2; w2; rows] (movedim n0 [-1]%Z [-2]%Z mi) ;;
    let m := movedim n0 [0%Z] [1%Z] (flip n0 [-3; -2]%Z m) in
    r <- conv_half c1 c2 h2 w2 rows rx m ;;
    m <- reshape [1; c2; h2; w2; conv_n_params] (movedim n0 [-1]%Z [-2]%Z r) ;;
    let m := movedim n0 [0%Z] [1%Z] (flip n0 [-3; -2]%Z m) in
    conv_half c1 c2 h2 w2 conv_n_params rx m.
  (** conv2d.py:431-569, full -> full with respect to the weight *)
  Definition conv_jTmjp_w_full x (val m : T) : res T :=
    '(b, c1, h1, w1) <- unpack4 x ;;
    '(_, c2, h2, w2) <- unpack4 val ;;
    check (shape_eqb (shape m) [b; c2 * h2 * w2; c2 * h2 * w2]) AssertionError
    (if cvmap cfg
     then vmap2 n0 n0 n0 (fun xi mi => conv_full_single c1 c2 h2 w2 (unsqueeze0 xi) (unsqueeze0 mi)) x m
     else loop_rows b [conv_n_params; conv_n_params] (fun i =>
            xi <- row0 i x ;; mi <- row0 i m ;; conv_full_single c1 c2 h2 w2 xi mi)).
  (** conv2d.py:602-622 and 636-653: one sample of the diag -> diag weight product *)
  Definition conv_dd_single (c1 c2 h2 w2 : nat) (wsq m : T) : res T :=
    m <- reshape_1m [1; h2; w2] (movedim n0 [1; 2; 3]%Z [-3; -2; -1]%Z m) ;;
    r <- dw_conv m wsq ;;
    r <- reshape [c2; c1; kh; kw] r ;;
    let r := movedim n0 [-3; -2; -1]%Z [1; 2; 3]%Z r in
    reshape [c2 * c1 * kh * kw] (flip n0 [-4; -3]%Z r).
  (** conv2d.py:585-658, diag -> diag with respect to the weight *)
  Definition conv_jTmjp_w_dd x (val m : T) : res T :=
    '(b, c1, h1, w1) <- unpack4 x ;;
    '(_, c2, h2, w2) <- unpack4 val ;;
    '(m, bias_term) <- (match bias with
                        | Some _ => m <- reshape [b; c2; h2 * w2] m ;; s <- sum2 m ;; Ok (m, s)
                        | None => Ok (m, m)
                        end) ;;
    m <- reshape [b; c2; h2; w2] m ;;
    let m := flip n0 [-3; -2; -1]%Z m in
    let fx := sq (flip n0 [-3; -2; -1]%Z x) in
    r <- (if cvmap cfg
          then vmap2 n0 n0 n0 (fun xi mi =>
                 conv_dd_single c1 c2 h2 w2 (movedim n0 [0%Z] [1%Z] (unsqueeze0 xi))
                                            (movedim n0 [0%Z] [1%Z] (unsqueeze0 mi))) fx m
          else let m := movedim n0 [0%Z] [1%Z] m in
               let fx := movedim n0 [0%Z] [1%Z] fx in
               loop_rows b [c2 * c1 * kh * kw] (fun i =>
                 wsq <- row1 i fx ;; mi <- row1 i m ;; conv_dd_single c1 c2 h2 w2 wsq mi)) ;;
    match bias with
    | Some _ => cat n0 1 [r; bias_term]
    | None => Ok r
    end.
  (** conv2d.py:367-658 *)
  Definition conv_jTmjp x val (mat : option T) w (from_diag to_diag diag_backprop : bool) : res (option T) :=
    val <- conv_val x val ;;
    let '(m, from_diag) := match mat with Some m => (m, from_diag) | None => (ones (shape val), true) end in
    match w with
    | Other => Ok None
    | _ =>
        let full m := match w with Input => conv_jTmjp_in_full x val m | _ => conv_jTmjp_w_full x val m end in
        match from_diag, to_diag with
        | false, false => some (full m)
        | true, false => some (d <- diag_embed m ;; full d)
        | false, true => some (f <- full m ;; diagonal12 f)
        | true, true => some (match w with Input => conv_jTmjp_in_dd x val m | _ => conv_jTmjp_w_dd x val m end)
        end
    end.
End Conv2d.
