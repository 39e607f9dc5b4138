(** A fourth model of the methods of nnj, of their floating-point types alone: which dtype each result has,
    how many significant digits it can carry, and which calls raise because torch refuses to mix dtypes.

    A tensor is abstracted to its dtype and to the coarsest dtype its entries have passed through; shapes and
    values are left out, so that the only RuntimeError of this model is the one torch raises for unequal dtypes.
    The rules of torch used here: elementwise operations, cat and products without summation promote to the finer
    dtype; matrix products, convolutions and sums of products raise on unequal dtypes; "a[i, :] = b" casts b to
    the dtype of a; "a[index tensors] = b" raises on unequal dtypes; torch.ones and torch.zeros without dtype= have
    torch's default dtype.

    Simplifications: the 16-bit types are represented by one (mixing float16 and bfloat16 is left out); einsum with
    a sum raises on unequal dtypes even if all the summed dimensions have size 1, where torch multiplies
    elementwise; custom layers keep the dtype of their input and have no parameters. *)
From Coq Require Import List Arith Bool.
From Verif Require Import Scalar Tensor Conv Abstract Simple LinearLayer ConvLayer PoolLayer Module.
Import ListNotations.
Local Open Scope nat_scope.
Local Open Scope list_scope.

(** float16, float32, float64 *)
Inductive dtype := Half | Single | Double.
Definition dtype_eqb (a b : dtype) : bool :=
  match a, b with Half, Half | Single, Single | Double, Double => true | _, _ => false end.
(** b is at least as fine as a *)
Definition dle (a b : dtype) : bool :=
  match a, b with Half, _ | Single, Single | Single, Double | Double, Double => true | _, _ => false end.
Definition dmax (a b : dtype) : dtype := if dle a b then b else a.
Definition dmin (a b : dtype) : dtype := if dle a b then a else b.

(** a tensor: its dtype, and the coarsest dtype its entries have been rounded to *)
Record num := mkN { dt : dtype; acc : dtype }.

(** *** torch's operations *)
(** a + b, a * b, torch.cat([a, b]), einsum without a sum: type promotion *)
Definition elem (a b : num) : num :=
  let d := dmax (dt a) (dt b) in mkN d (dmin d (dmin (acc a) (acc b))).
(** torch.cat of one or more tensors *)
Definition cats (a : num) (l : list num) : num := fold_left elem l a.
(** einsum with a sum, F.linear, F.conv2d, F.conv_transpose2d *)
Definition contract (a b : num) : res num := if dtype_eqb (dt a) (dt b) then Ok (elem a b) else Raise RuntimeError.
(** a += b keeps the dtype of a *)
Definition add_in (a b : num) : num := mkN (dt a) (dmin (dt a) (dmin (acc a) (acc b))).
(** torch.ones_like(a), torch.zeros_like(a), torch.ones(..., dtype=a.dtype), torch.eye(..., dtype=a.dtype):
    0 and 1 are exact in every dtype *)
Definition like (a : num) : num := mkN (dt a) Double.
(** torch.ones(...), torch.zeros(...) with torch's default dtype *)
Definition default (dd : dtype) : num := mkN dd Double.
(** z = torch.zeros(...) of dtype d; z[i, :] = a *)
Definition assign (d : dtype) (a : num) : num := mkN d (dmin d (acc a)).
(** z = torch.zeros(...) of dtype d; z[indices] = a *)
Definition put (d : dtype) (a : num) : res num := if dtype_eqb (dt a) d then Ok (assign d a) else Raise RuntimeError.

Section Dtype.
  Context {K} `{Num K}.
  (** the dtype of the parameters, and torch's default dtype *)
  Variables p dd : dtype.
  Definition par : num := mkN p p.

  (** with or without a bias *)
  Definition biased {B} (bias : option B) (e b : num) : num := match bias with Some _ => elem e b | None => e end.

  (** *** Linear (linear.py) *)
  Definition t_lin_forward (x : num) : res num := contract x par.
  Definition t_lin_val (x : num) (val : option num) : res num :=
    match val with Some v => Ok v | None => t_lin_forward x end.
  (** linear.py:15-33 *)
  Definition t_lin_jacobian {B} (bias : option B) (x : num) (val : option num) (w : wrt) : res (option num) :=
    match w with
    | Input => Ok (Some par)
    | Weight => val <- t_lin_val x val ;; Ok (Some (biased bias (elem x (like val)) (like val)))
    | Other => Ok None
    end.
  (** linear.py:40-61 *)
  Definition t_lin_jvp {B} (bias : option B) (x : num) (val : option num) (v : num) (w : wrt) : res (option num) :=
    match w with
    | Input => some (contract par v)
    | Weight => _ <- t_lin_val x val ;; e <- contract v x ;; Ok (Some (biased bias e v))
    | Other => Ok None
    end.
  (** linear.py:64-90 *)
  Definition t_lin_jmp {B} (bias : option B) (x : num) (val mat : option num) (w : wrt) : res (option num) :=
    match mat with None => t_lin_jacobian bias x val w | Some m => t_lin_jvp bias x val m w end.
  (** linear.py:93-164 *)
  Definition t_lin_jmjTp {B} (bias : option B) (x : num) (val mat : option num) (w : wrt) (fd td db : bool)
    : res (option num) :=
    val <- t_lin_val x val ;;
    match w with
    | Input => let m := match mat with Some m => m | None => like x end in
               a <- contract par m ;; some (contract a par)
    | Weight =>
        let '(m, fd) := match mat with Some m => (m, fd) | None => (like x, true) end in
        if fd then e <- contract (elem x x) m ;; Ok (Some (biased bias e m))
        else a <- t_lin_jmp bias x (Some val) (Some m) Weight ;; a <- need a ;;
             t_lin_jmp bias x (Some val) (Some a) Weight
    | Other => Ok None
    end.
  (** linear.py:171-188: "bi,bj->bij" has no sum *)
  Definition t_lin_vjp {B} (bias : option B) (x v : num) (w : wrt) : res (option num) :=
    match w with
    | Input => some (contract v par)
    | Weight => Ok (Some (biased bias (elem v x) v))
    | Other => Ok None
    end.
  (** linear.py:191-212 *)
  Definition t_lin_mjp {B} (bias : option B) (x : num) (val mat : option num) (w : wrt) : res (option num) :=
    match mat with None => t_lin_jacobian bias x val w | Some m => t_lin_vjp bias x m w end.
  (** linear.py:215-294 *)
  Definition t_lin_jTmjp {B} (bias : option B) (x : num) (val mat : option num) (w : wrt) (fd td db : bool)
    : res (option num) :=
    val <- t_lin_val x val ;;
    let '(m, fd) := match mat with Some m => (m, fd) | None => (like val, true) end in
    match w with
    | Input => a <- contract par m ;; some (contract a par)
    | Weight =>
        match fd, td with
        | false, false => a <- t_lin_mjp bias x (Some val) (Some m) Weight ;; a <- need a ;;
                          t_lin_mjp bias x (Some val) (Some a) Weight
        | true, false =>
            let first := elem (elem x x) m in
            let outer := elem x m in
            Ok (Some (match bias with None => first | Some _ => elem (elem first outer) (elem outer m) end))
        | _, true => Ok (Some (biased bias (elem (elem x x) m) m))
        end
    | Other => Ok None
    end.

  (** *** Layers with the products of AbstractJacobian (abstract_jacobian.py:46-232), given their jacobian;
      the products are sums *)
  Definition t_aj_product (jac : res (option num)) (v : num) : res (option num) :=
    j <- jac ;; match j with None => Ok None | Some j => some (contract j v) end.
  (** a missing matrix is handed to einsum, which raises TypeError *)
  Definition t_aj_matrix (jac : res (option num)) (m : option num) : res (option num) :=
    j <- jac ;; match j with None => Ok None | Some j => m <- need m ;; some (contract j m) end.
  Definition t_aj_metric (jac : res (option num)) (m : option num) : res (option num) :=
    j <- jac ;; match j with
                | None => Ok None
                | Some j => m <- need m ;; a <- contract j m ;; some (contract a j)
                end.

  (** *** Activations: the diagonal of the jacobian (sigmoid.py:25, tanh.py:26, relu.py:22, softplus.py:26,
      truncexp.py:47, sinusoidal.py:30) *)
  Definition t_act_diag (a : act K) (x val : num) : num :=
    match a with
    | Tanh | Sigmoid | ReLU => val
    | _ => x
    end.
  Definition t_act_jacobian (a : act K) (x : num) (val : option num) (w : wrt) : option num :=
    match w with Input => Some (t_act_diag a x (match val with Some v => v | None => x end)) | _ => None end.
  (** abstract_diagonal_jacobian.py:33-62, 101-136 *)
  Definition t_ad_product (a : act K) (x : num) (val : option num) (v : num) (w : wrt) : option num :=
    match t_act_jacobian a x val w with None => None | Some j => Some (elem j v) end.
  Definition t_ad_matrix (a : act K) (x : num) (val m : option num) (w : wrt) : option num :=
    match m with None => t_act_jacobian a x val w | Some m => t_ad_product a x val m w end.
  (** abstract_diagonal_jacobian.py:65-97, 139-177; [o] is the tensor of ones for a missing matrix *)
  Definition t_ad_metric (a : act K) (x : num) (val m : option num) (o : num) (w : wrt) : option num :=
    match t_act_jacobian a x val w with
    | None => None
    | Some j => Some (elem (elem j (match m with Some m => m | None => o end)) j)
    end.

  (** *** Flatten and Reshape (flatten.py, reshape.py) *)
  Definition t_id_matrix (x : num) (m : option num) (w : wrt) : option num :=
    match w with Input => Some (match m with Some m => m | None => like x end) | _ => None end.

  (** *** L2Norm.jacobian (l2norm.py:23-46): the identity of line 41 has the default dtype *)
  Definition t_l2_jacobian (x : num) (w : wrt) : res (option num) :=
    match w with
    | Input => let nx := elem x x in Ok (Some (elem x (elem (default dd) (elem nx nx))))
    | _ => Ok None
    end.

  (** *** Conv2d (conv2d.py) *)
  Definition t_conv_val (x : num) (val : option num) : res num :=
    match val with Some v => Ok v | None => contract x par end.
  (** conv2d.py:221, 331, 506, 628: without vmap the result is copied into zeros of the default dtype *)
  Definition loop (cfg : conv_cfg) (e : num) : num := if cvmap cfg then e else assign dd e.
  (** conv2d.py:164-254 and, for a matrix, 257-364 *)
  Definition t_conv_back {B} (cfg : conv_cfg) (bias : option B) (x : num) (val : option num) (v : num) (w : wrt)
    : res (option num) :=
    _ <- t_conv_val x val ;;
    match w with
    | Input => some (contract v par)
    | Weight => e <- contract v x ;; Ok (Some (biased bias (loop cfg e) v))
    | Other => Ok None
    end.
  (** conv2d.py:44-58: the identity of line 54 has the default dtype *)
  Definition t_conv_jacobian {B} (cfg : conv_cfg) (bias : option B) (x : num) (val : option num) (w : wrt)
    : res (option num) :=
    val <- t_conv_val x val ;; t_conv_back cfg bias x (Some val) (default dd) w.
  Definition t_conv_mjp {B} (cfg : conv_cfg) (bias : option B) (x : num) (val m : option num) (w : wrt)
    : res (option num) :=
    val <- t_conv_val x val ;;
    match m with None => t_conv_jacobian cfg bias x (Some val) w | Some m => t_conv_back cfg bias x (Some val) m w end.
  (** conv2d.py:367-658 *)
  Definition t_conv_jTmjp {B} (cfg : conv_cfg) (bias : option B) (x : num) (val m : option num) (w : wrt)
    (fd td db : bool) : res (option num) :=
    val <- t_conv_val x val ;;
    let '(m, fd) := match m with Some m => (m, fd) | None => (like val, true) end in
    match w with
    | Input => if (fd && td)%bool then some (contract m par)
               else a <- contract m par ;; some (contract a par)
    | Weight =>
        if (fd && td)%bool then e <- contract m (elem x x) ;; Ok (Some (biased bias (loop cfg e) m))
        else a <- contract m x ;; let a := biased bias a m in
             b <- contract a x ;; Ok (Some (loop cfg (biased bias b a)))
    | Other => Ok None
    end.

  (** *** Dispatch to the layers *)
  Definition t_leaf_forward (l : leaf K) (x : num) : res num :=
    match l with
    | Linear _ _ => t_lin_forward x
    | Conv2d _ _ _ => contract x par
    | L2Norm _ => Ok (elem x x)
    | _ => Ok x
    end.
  (** Upsample (upsample.py:136, 175, 222, 271): the kernel of ones has the default dtype *)
  Definition t_up_back (v : num) (w : wrt) : res (option num) :=
    match w with Input => some (contract v (default dd)) | _ => Ok None end.
  (** upsample.py:17-34: so has the identity of line 29 *)
  Definition t_up_mjp (m : option num) (w : wrt) : res (option num) :=
    t_up_back (match m with Some m => m | None => default dd end) w.
  Definition t_cu_jacobian (x : num) (w : wrt) : res (option num) :=
    Ok (match w with Input => Some x | _ => None end).
  Definition t_leaf_jacobian (l : leaf K) (x : num) (val : option num) (w : wrt) : res (option num) :=
    match l with
    | Linear _ b => t_lin_jacobian b x val w
    | Conv2d c _ b => t_conv_jacobian c b x val w
    | Act a => Ok (t_act_jacobian a x val w)
    | Flatten | Reshape _ => Ok (t_id_matrix x None w)
    | L2Norm _ => t_l2_jacobian x w
    | Upsample _ _ => t_up_mjp None w
    | Custom _ => t_cu_jacobian x w
    end.
  (** NotImplementedError for the input (and, in Conv2d, for the weight) *)
  Definition t_missing (weight : bool) (w : wrt) : res (option num) :=
    match w with
    | Input => Raise NotImplementedError
    | Weight => if weight then Raise NotImplementedError else Ok None
    | Other => Ok None
    end.
  Definition t_leaf_jvp (l : leaf K) (x : num) (val : option num) (v : num) (w : wrt) : res (option num) :=
    match l with
    | Linear _ b => t_lin_jvp b x val v w
    | Conv2d _ _ _ => t_missing true w
    | Act a => Ok (t_ad_product a x val v w)
    | Flatten | Reshape _ => Ok (t_id_matrix x (Some v) w)
    | L2Norm _ => t_aj_product (t_l2_jacobian x w) v
    | Upsample _ _ => t_missing false w
    | Custom _ => t_aj_product (t_cu_jacobian x w) v
    end.
  Definition t_leaf_jmp (l : leaf K) (x : num) (val m : option num) (w : wrt) : res (option num) :=
    match l with
    | Linear _ b => t_lin_jmp b x val m w
    | Conv2d c _ b => match m with None => t_conv_jacobian c b x val w | Some _ => t_missing true w end
    | Act a => Ok (t_ad_matrix a x val m w)
    | Flatten | Reshape _ => Ok (t_id_matrix x m w)
    | L2Norm _ => t_aj_matrix (t_l2_jacobian x w) m
    | Upsample _ _ => match m with None => t_up_mjp None w | Some _ => t_missing false w end
    | Custom _ => t_aj_matrix (t_cu_jacobian x w) m
    end.
  Definition t_leaf_vjp (l : leaf K) (x : num) (val : option num) (v : num) (w : wrt) : res (option num) :=
    match l with
    | Linear _ b => t_lin_vjp b x v w
    | Conv2d c _ b => t_conv_back c b x val v w
    | Act a => Ok (t_ad_product a x val v w)
    | Flatten | Reshape _ => Ok (t_id_matrix x (Some v) w)
    | L2Norm _ => t_aj_product (t_l2_jacobian x w) v
    | Upsample _ _ => t_up_back v w
    | Custom _ => t_aj_product (t_cu_jacobian x w) v
    end.
  Definition t_leaf_mjp (l : leaf K) (x : num) (val m : option num) (w : wrt) : res (option num) :=
    match l with
    | Linear _ b => t_lin_mjp b x val m w
    | Conv2d c _ b => t_conv_mjp c b x val m w
    | Act a => Ok (t_ad_matrix a x val m w)
    | Flatten | Reshape _ => Ok (t_id_matrix x m w)
    | L2Norm _ => t_aj_matrix (t_l2_jacobian x w) m
    | Upsample _ _ => t_up_mjp m w
    | Custom _ => t_aj_matrix (t_cu_jacobian x w) m
    end.
  Definition t_leaf_jmjTp (l : leaf K) (x : num) (val m : option num) (w : wrt) (fd td db : bool)
    : res (option num) :=
    match l with
    | Linear _ b => t_lin_jmjTp b x val m w fd td db
    | Conv2d _ _ _ => _ <- t_conv_val x val ;; t_missing true w
    | Act a => Ok (t_ad_metric a x val m (like x) w)
    | Flatten | Reshape _ => Ok (t_id_matrix x m w)
    | L2Norm _ => t_aj_metric (t_l2_jacobian x w) m
    | Upsample _ _ => t_missing false w
    | Custom _ => t_aj_metric (t_cu_jacobian x w) m
    end.
  Definition t_leaf_jTmjp (l : leaf K) (x : num) (val m : option num) (w : wrt) (fd td db : bool)
    : res (option num) :=
    match l with
    | Linear _ b => t_lin_jTmjp b x val m w fd td db
    | Conv2d c _ b => t_conv_jTmjp c b x val m w fd td db
    | Act a => Ok (t_ad_metric a x val m (like (match val with Some v => v | None => x end)) w)
    | Flatten | Reshape _ => Ok (t_id_matrix (match val with Some v => v | None => x end) m w)
    | L2Norm _ => t_aj_metric (t_l2_jacobian x w) m
    | Upsample _ _ =>
        let m := match m with Some m => m | None => like (match val with Some v => v | None => x end) end in
        match w with
        | Input => if (fd && td)%bool then some (contract m (default dd))
                   else a <- contract m (default dd) ;; some (contract a (default dd))
        | _ => Ok None
        end
    | Custom _ => t_aj_metric (t_cu_jacobian x w) m
    end.

  (** *** State: the dtypes of self.feature_maps, and the states of the children *)
  Inductive tst := TSt (fm : list num) (kids : list tst).
  Definition tst0 : tst := TSt [] [].
  Definition t_fm (s : tst) : list num := match s with TSt fm _ => fm end.
  Definition t_kids (s : tst) : list tst := match s with TSt _ k => k end.
  Definition t_kid (s : tst) : tst := hd tst0 (t_kids s).
  Definition t_set_kid (s k : tst) : tst := TSt (t_fm s) [k].
  Definition t_split (ks : list tst) : tst * list tst := match ks with [] => (tst0, []) | k :: ks => (k, ks) end.
  Definition t_push (hooks : bool) (fm : list num) (y : num) : list num := if hooks then fm ++ [y] else fm.

  Inductive tvalue := TN | TT (t : num) | TL (l : list tvalue).
  Definition t_of_opt (o : option num) : tvalue := match o with None => TN | Some t => TT t end.
  Definition t_to_opt (v : tvalue) : res (option num) :=
    match v with TN => Ok None | TT t => Ok (Some t) | TL _ => Raise TypeError end.
  Definition t_to_tensor (v : tvalue) : res num := match v with TT t => Ok t | _ => Raise TypeError end.

  (** *** forward (sequential.py:30-36, skipconnection.py:17-18, maxpool2d.py:16-27) *)
  Section Fwd.
    Variable fw : module K -> tst -> num -> tst * res num.
    Fixpoint t_seq_forward (hooks : bool) (ms : list (module K)) (ks : list tst) (x : num) (fm : list num)
      : list tst * list num * res num :=
      match ms with
      | [] => ([], fm, Ok x)
      | m :: ms =>
          let '(k, ks) := t_split ks in
          let '(k, r) := fw m k x in
          match r with
          | Raise e => (k :: ks, fm, Raise e)
          | Ok y => let '(ks, fm, r) := t_seq_forward hooks ms ks y (t_push hooks fm y) in (k :: ks, fm, r)
          end
      end.
  End Fwd.
  Fixpoint t_forward (m : module K) (s : tst) (x : num) {struct m} : tst * res num :=
    match m with
    | Leaf l => (s, t_leaf_forward l x)
    | MaxPool _ => (s, Ok x)
    | Seq hooks ms =>
        let '(ks, fm, r) := t_seq_forward t_forward hooks ms (t_kids s) x (if hooks then [x] else t_fm s) in
        (TSt fm ks, r)
    | Skip F =>
        let '(k, r) := t_forward F (t_kid s) x in
        (t_set_kid s k, y <- r ;; Ok (elem x y))
    end.
  Definition t_ensure (m : module K) (s : tst) (x : num) (val : option num) : tst * res num :=
    match val with Some v => (s, Ok v) | None => t_forward m s x end.
  Definition t_fmap_at (hooks : bool) (fm : list num) (k : nat) : res num :=
    if hooks then match nth_error fm k with Some t => Ok t | None => Raise IndexError end
    else Raise AttributeError.
  Definition t_fmap2 (hooks : bool) (fm : list num) (k : nat) : res (num * num) :=
    x <- t_fmap_at hooks fm k ;; y <- t_fmap_at hooks fm (S k) ;; Ok (x, y).

  (** *** vjp (sequential.py:218-250, skipconnection.py:141-156, maxpool2d.py:150-182) *)
  Section Vjp.
    Variable f : module K -> tst -> num -> option num -> num -> wrt -> tst * res (option num).
    Fixpoint t_seq_vjp_in (hooks : bool) (fm : list num) (ms : list (module K)) (ks : list tst) (k : nat) (v : num)
      : list tst * res num :=
      match ms with
      | [] => ([], Ok v)
      | m :: ms =>
          let '(s, ks) := t_split ks in
          let '(ks, r) := t_seq_vjp_in hooks fm ms ks (S k) v in
          match (v <- r ;; q <- t_fmap2 hooks fm k ;; Ok (v, q)) with
          | Raise e => (s :: ks, Raise e)
          | Ok (v, (x, y)) => let '(s, r) := f m s x (Some y) v Input in (s :: ks, r <- r ;; need r)
          end
      end.
    Fixpoint t_seq_vjp_w (hooks : bool) (fm : list num) (ms : list (module K)) (ks : list tst) (k : nat) (v : num)
      : list tst * res (list num * num) :=
      match ms with
      | [] => ([], Ok ([], v))
      | m :: ms =>
          let '(s, ks) := t_split ks in
          let '(ks, r) := t_seq_vjp_w hooks fm ms ks (S k) v in
          match (a <- r ;; q <- t_fmap2 hooks fm k ;; Ok (a, q)) with
          | Raise e => (s :: ks, Raise e)
          | Ok (vs, v, (x, y)) =>
              let '(s, r) := f m s x (Some y) v Weight in
              match r with
              | Raise e => (s :: ks, Raise e)
              | Ok vk =>
                  let vs := match vk with Some t => t :: vs | None => vs end in
                  if Nat.eqb k 0 then (s :: ks, Ok (vs, v))
                  else let '(s, r) := f m s x (Some y) v Input in
                       (s :: ks, r <- r ;; v <- need r ;; Ok (vs, v))
              end
          end
      end.
  End Vjp.
  Definition t_cat (vs : list num) : option num := match vs with [] => None | a :: l => Some (cats a l) end.
  (** maxpool2d.py:175, 214, 265: zeros of the default dtype, filled by indexed assignment *)
  Fixpoint t_vjp (m : module K) (s : tst) (x : num) (val : option num) (v : num) (w : wrt) {struct m}
    : tst * res (option num) :=
    match m with
    | Leaf l => (s, t_leaf_vjp l x val v w)
    | MaxPool _ => (s, match w with Input => some (put dd v) | _ => Ok None end)
    | Seq hooks ms =>
        if wrt_ok w then
          let '(s, r) := t_ensure m s x val in
          match r with
          | Raise e => (s, Raise e)
          | Ok _ =>
              match w with
              | Weight =>
                  let '(ks, r) := t_seq_vjp_w t_vjp hooks (t_fm s) ms (t_kids s) 0 v in
                  (TSt (t_fm s) ks, '(vs, _) <- r ;; Ok (t_cat vs))
              | _ =>
                  let '(ks, r) := t_seq_vjp_in t_vjp hooks (t_fm s) ms (t_kids s) 0 v in
                  (TSt (t_fm s) ks, some r)
              end
          end
        else (s, Raise AssertionError)
    | Skip F =>
        let '(k, r) := t_vjp F (t_kid s) x val v w in
        (t_set_kid s k,
         r <- r ;;
         match w with
         | Input => r <- need r ;; Ok (Some (elem v r))
         | Weight => Ok r
         | Other => Ok None
         end)
    end.

  (** *** mjp and jacobian (sequential.py:39-41, 253-287, skipconnection.py:21-38, 159-176, maxpool2d.py:30-54,
      185-221) *)
  Section Mjp.
    Variable f : module K -> tst -> num -> option num -> option num -> wrt -> tst * res (option num).
    Fixpoint t_seq_mjp_in (hooks : bool) (fm : list num) (ms : list (module K)) (ks : list tst) (k : nat)
      (v : option num) : list tst * res (option num) :=
      match ms with
      | [] => ([], Ok v)
      | m :: ms =>
          let '(s, ks) := t_split ks in
          let '(ks, r) := t_seq_mjp_in hooks fm ms ks (S k) v in
          match (v <- r ;; q <- t_fmap2 hooks fm k ;; Ok (v, q)) with
          | Raise e => (s :: ks, Raise e)
          | Ok (v, (x, y)) => let '(s, r) := f m s x (Some y) v Input in (s :: ks, r)
          end
      end.
    Fixpoint t_seq_mjp_w (hooks : bool) (fm : list num) (ms : list (module K)) (ks : list tst) (k : nat)
      (v : option num) : list tst * res (list num * option num) :=
      match ms with
      | [] => ([], Ok ([], v))
      | m :: ms =>
          let '(s, ks) := t_split ks in
          let '(ks, r) := t_seq_mjp_w hooks fm ms ks (S k) v in
          match (a <- r ;; q <- t_fmap2 hooks fm k ;; Ok (a, q)) with
          | Raise e => (s :: ks, Raise e)
          | Ok (vs, v, (x, y)) =>
              let '(s, r) := f m s x (Some y) v Weight in
              match r with
              | Raise e => (s :: ks, Raise e)
              | Ok vk =>
                  let vs := match vk with Some t => t :: vs | None => vs end in
                  if Nat.eqb k 0 then (s :: ks, Ok (vs, v))
                  else let '(s, r) := f m s x (Some y) v Input in
                       (s :: ks, v <- r ;; Ok (vs, v))
              end
          end
      end.
  End Mjp.
  Definition t_pool_jacobian (w : wrt) : res (option num) :=
    match w with Input => Ok (Some (default dd)) | _ => Ok None end.
  Definition t_skip_jacobian (F : module K) (jacF : tst -> option num -> tst * res (option num))
    (s : tst) (x : num) (val : option num) (w : wrt) : tst * res (option num) :=
    let '(k, r) := jacF (t_kid s) val in
    let s := t_set_kid s k in
    match r with
    | Raise e => (s, Raise e)
    | Ok jac =>
        let '(s, r) := t_ensure (Skip F) s x val in
        (s, _ <- r ;;
            match w with
            | Other => Ok None
            | _ => jac <- need jac ;; Ok (Some (elem (like x) jac))
            end)
    end.
  Fixpoint t_mjp (m : module K) (s : tst) (x : num) (val mat : option num) (w : wrt) {struct m}
    : tst * res (option num) :=
    match m with
    | Leaf l => (s, t_leaf_mjp l x val mat w)
    | MaxPool _ => (s, match mat with
                       | None => t_pool_jacobian w
                       | Some mt => match w with Input => some (put dd mt) | _ => Ok None end
                       end)
    | Seq hooks ms =>
        if wrt_ok w then
          let '(s, r) := t_ensure m s x val in
          match r with
          | Raise e => (s, Raise e)
          | Ok _ =>
              let mt := match mat with Some mt => mt | None => like x end in
              match w with
              | Weight =>
                  let '(ks, r) := t_seq_mjp_w t_mjp hooks (t_fm s) ms (t_kids s) 0 (Some mt) in
                  (TSt (t_fm s) ks, '(vs, _) <- r ;; Ok (t_cat vs))
              | _ =>
                  let '(ks, r) := t_seq_mjp_in t_mjp hooks (t_fm s) ms (t_kids s) 0 (Some mt) in
                  (TSt (t_fm s) ks, r)
              end
          end
        else (s, Raise AssertionError)
    | Skip F =>
        match mat with
        | None => t_skip_jacobian F (fun k val => t_mjp F k x val None w) s x val w
        | Some mt =>
            let '(k, r) := t_mjp F (t_kid s) x val (Some mt) w in
            (t_set_kid s k,
             r <- r ;;
             match w with
             | Input => r <- need r ;; Ok (Some (elem mt r))
             | Weight => Ok r
             | Other => Ok None
             end)
        end
    end.
  Definition t_jacobian (m : module K) (s : tst) (x : num) (val : option num) (w : wrt) : tst * res (option num) :=
    match m with
    | Leaf l => (s, t_leaf_jacobian l x val w)
    | MaxPool _ => (s, t_pool_jacobian w)
    | _ => t_mjp m s x val None w
    end.

  (** *** jvp and jmp (sequential.py:48-121, skipconnection.py:45-84, maxpool2d.py:61-107) *)
  Definition t_accumulate (a new : option num) : option num :=
    match new with None => a | Some n => match a with None => Some n | Some a => Some (add_in a n) end end.
  Section Jmp.
    Variable f : module K -> tst -> num -> option num -> option num -> wrt -> tst * res (option num).
    Fixpoint t_seq_jmp_in (hooks : bool) (ms : list (module K)) (ks : list tst) (x : num) (fm : list num)
      (v : option num) : list tst * list num * res (option num) :=
      match ms with
      | [] => ([], fm, Ok v)
      | m :: ms =>
          let '(k, ks) := t_split ks in
          let '(k, r) := t_forward m k x in
          match r with
          | Raise e => (k :: ks, fm, Raise e)
          | Ok y =>
              let fm := t_push hooks fm y in
              let '(k, r) := f m k x (Some y) v Input in
              match r with
              | Raise e => (k :: ks, fm, Raise e)
              | Ok v => let '(ks, fm, r) := t_seq_jmp_in hooks ms ks y fm v in (k :: ks, fm, r)
              end
          end
      end.
    Fixpoint t_seq_jmp_w (hooks : bool) (ms : list (module K)) (ks : list tst) (x : num) (fm : list num) (v : num)
      (a : option num) : list tst * list num * res (option num) :=
      match ms with
      | [] => ([], fm, Ok a)
      | m :: ms =>
          let '(k, ks) := t_split ks in
          let '(k, r) := t_forward m k x in
          match r with
          | Raise e => (k :: ks, fm, Raise e)
          | Ok y =>
              let fm := t_push hooks fm y in
              let '(k, r) := match a with None => (k, Ok None) | Some b => f m k x (Some y) (Some b) Input end in
              match r with
              | Raise e => (k :: ks, fm, Raise e)
              | Ok a =>
                  let '(k, r) := f m k x (Some y) (Some v) Weight in
                  match r with
                  | Raise e => (k :: ks, fm, Raise e)
                  | Ok new =>
                      let '(ks, fm, r) := t_seq_jmp_w hooks ms ks y fm v (t_accumulate a new) in (k :: ks, fm, r)
                  end
              end
          end
      end.
  End Jmp.
  (** jvp: [lift] turns the function on vectors into one on optional vectors, None raising as in Module.v *)
  Definition lift (f : module K -> tst -> num -> option num -> num -> wrt -> tst * res (option num))
    (m : module K) (s : tst) (x : num) (val v : option num) (w : wrt) : tst * res (option num) :=
    match v with
    | None => (s, Raise TypeError)
    | Some v => let '(s, r) := f m s x val v w in
                (s, r <- r ;; match w, r with Input, None => Raise TypeError | _, _ => Ok r end)
    end.
  Fixpoint t_jvp (m : module K) (s : tst) (x : num) (val : option num) (v : num) (w : wrt) {struct m}
    : tst * res (option num) :=
    match m with
    | Leaf l => (s, t_leaf_jvp l x val v w)
    | MaxPool _ => (s, t_missing false w)
    | Seq hooks ms =>
        match w with
        | Input => let '(ks, fm, r) := t_seq_jmp_in (lift t_jvp) hooks ms (t_kids s) x (t_fm s) (Some v) in (TSt fm ks, r)
        | Weight => let '(ks, fm, r) := t_seq_jmp_w (lift t_jvp) hooks ms (t_kids s) x (t_fm s) v None in (TSt fm ks, r)
        | Other => (s, Raise AssertionError)
        end
    | Skip F =>
        let '(k, r) := t_jvp F (t_kid s) x val v w in
        (t_set_kid s k,
         r <- r ;;
         match w with
         | Input => r <- need r ;; Ok (Some (elem v r))
         | Weight => r <- need r ;; Ok (Some (elem (like x) r))
         | Other => Ok None
         end)
    end.
  Fixpoint t_jmp (m : module K) (s : tst) (x : num) (val mat : option num) (w : wrt) {struct m}
    : tst * res (option num) :=
    match m with
    | Leaf l => (s, t_leaf_jmp l x val mat w)
    | MaxPool _ => (s, match mat with
                       | None => t_pool_jacobian w
                       | Some mt => Ok (match w with Input => Some mt | _ => None end)
                       end)
    | Seq hooks ms =>
        if wrt_ok w then
          match mat with
          | None => t_jacobian m s x val w
          | Some mt =>
              match w with
              | Weight => let '(ks, fm, r) := t_seq_jmp_w t_jmp hooks ms (t_kids s) x (t_fm s) mt None in (TSt fm ks, r)
              | _ => let '(ks, fm, r) := t_seq_jmp_in t_jmp hooks ms (t_kids s) x (t_fm s) (Some mt) in (TSt fm ks, r)
              end
          end
        else (s, Raise AssertionError)
    | Skip F =>
        match mat with
        | None => t_jacobian m s x val w
        | Some mt =>
            let '(k, r) := t_jmp F (t_kid s) x val (Some mt) w in
            (t_set_kid s k,
             r <- r ;;
             match w with
             | Input => r <- need r ;; Ok (Some (elem mt r))
             | Weight => r <- need r ;; Ok (Some (elem (like x) r))
             | Other => Ok None
             end)
        end
    end.

  (** *** jmjTp (sequential.py:124-211, skipconnection.py:87-134, maxpool2d.py:110-143) *)
  Section JmjTp.
    Variable f : module K -> tst -> num -> option num -> tvalue -> wrt -> bool -> bool -> bool -> tst * res tvalue.
    Fixpoint t_seq_jmjTp_in (hooks : bool) (fm : list num) (ms : list (module K)) (ks : list tst) (k : nat)
      (v : tvalue) (fd td db : bool) : list tst * res tvalue :=
      match ms with
      | [] => ([], Ok v)
      | m :: ms =>
          let '(s, ks) := t_split ks in
          match t_fmap2 hooks fm k with
          | Raise e => (s :: ks, Raise e)
          | Ok (x, y) =>
              let '(s, r) := f m s x (Some y) v Input (if Nat.eqb k 0 then fd else db)
                               (match ms with [] => td | _ => db end) db in
              match r with
              | Raise e => (s :: ks, Raise e)
              | Ok v => let '(ks, r) := t_seq_jmjTp_in hooks fm ms ks (S k) v fd td db in (s :: ks, r)
              end
          end
      end.
    (** one block per parametric layer *)
    Fixpoint t_blocks (ms : list (module K)) (mt : num) : list tvalue :=
      match ms with
      | [] => []
      | m :: ms => if Nat.eqb (n_params m) 0 then t_blocks ms mt else TT mt :: t_blocks ms mt
      end.
    Fixpoint t_seq_jmjTp_w (hooks : bool) (fm : list num) (ms : list (module K)) (ks : list tst) (k : nat)
      (blocks : list tvalue) (a : tvalue) (fd td db : bool) : list tst * res tvalue :=
      match ms with
      | [] => ([], Ok a)
      | m :: ms =>
          let '(s, ks) := t_split ks in
          let td' := match ms with [] => td | _ => db end in
          let '(s, r) := match a with
                         | TN => (s, Ok TN)
                         | a => match t_fmap2 hooks fm k with
                                | Raise e => (s, Raise e)
                                | Ok (x, y) => f m s x (Some y) a Input db td' db
                                end
                         end in
          match r with
          | Raise e => (s :: ks, Raise e)
          | Ok a =>
              if Nat.eqb (n_params m) 0
              then let '(ks, r) := t_seq_jmjTp_w hooks fm ms ks (S k) blocks a fd td db in (s :: ks, r)
              else
                match (q <- t_fmap2 hooks fm k ;;
                       match blocks with [] => Raise IndexError | b :: bs => Ok (q, b, bs) end) with
                | Raise e => (s :: ks, Raise e)
                | Ok (x, y, b, bs) =>
                    let '(s, r) := f m s x (Some y) b Weight fd td' db in
                    match (new <- r ;; new <- t_to_opt new ;; a <- t_to_opt a ;; Ok (t_accumulate a new)) with
                    | Raise e => (s :: ks, Raise e)
                    | Ok a =>
                        let '(ks, r) := t_seq_jmjTp_w hooks fm ms ks (S k) bs (t_of_opt a) fd td db in (s :: ks, r)
                    end
                end
          end
      end.
  End JmjTp.
  Fixpoint t_jmjTp (m : module K) (s : tst) (x : num) (val : option num) (mat : tvalue) (w : wrt) (fd td db : bool)
    {struct m} : tst * res tvalue :=
    match m with
    | Leaf l => (s, mt <- t_to_opt mat ;; r <- t_leaf_jmjTp l x val mt w fd td db ;; Ok (t_of_opt r))
    | MaxPool _ => (s, match w with Input => Raise NotImplementedError | _ => Ok TN end)
    | Seq hooks ms =>
        if db_ok fd td db then
          let '(s, r) := t_ensure m s x val in
          match r with
          | Raise e => (s, Raise e)
          | Ok _ =>
              let '(mt, fd) := match mat with TN => (TT (like x), true) | v => (v, fd) end in
              match w with
              | Input =>
                  let '(ks, r) := t_seq_jmjTp_in t_jmjTp hooks (t_fm s) ms (t_kids s) 0 mt fd td db in
                  (TSt (t_fm s) ks, r)
              | Weight =>
                  let bs := match mt with TL l => l | TT t => t_blocks ms t | TN => [] end in
                  let '(ks, r) := t_seq_jmjTp_w t_jmjTp hooks (t_fm s) ms (t_kids s) 0 bs TN fd td db in
                  (TSt (t_fm s) ks, r)
              | Other => (s, Ok TN)
              end
          end
        else (s, Raise AssertionError)
    | Skip F =>
        if db_ok fd td db then
          let '(s, r) := t_ensure m s x val in
          match r with
          | Raise e => (s, Raise e)
          | Ok y =>
              let '(k, r) := t_jmjTp F (t_kid s) x (Some y) mat w fd td db in
              let s := t_set_kid s k in
              match r with
              | Raise e => (s, Raise e)
              | Ok j =>
                  match w with
                  | Input =>
                      match t_to_tensor mat with
                      | Raise e => (s, Raise e)
                      | Ok mt =>
                          if td then (s, j <- t_to_tensor j ;; Ok (TT (elem mt j)))
                          else
                            let '(k, r) := t_jmp F (t_kid s) x (Some y) (Some mt) w in
                            let s := t_set_kid s k in
                            match (jm <- r ;; need jm) with
                            | Raise e => (s, Raise e)
                            | Ok jm =>
                                if fd then (s, j <- t_to_tensor j ;; Ok (TT (elem (elem mt jm) (elem jm j))))
                                else
                                  let '(k, r) := t_jmp F (t_kid s) x (Some y) (Some mt) w in
                                  let s := t_set_kid s k in
                                  (s, mj <- r ;; mj <- need mj ;; j <- t_to_tensor j ;;
                                      Ok (TT (elem (elem mt mj) (elem jm j))))
                            end
                      end
                  | Weight => (s, j <- t_to_tensor j ;; Ok (TT (elem (like x) j)))
                  | Other => (s, Ok TN)
                  end
              end
          end
        else (s, Raise AssertionError)
    end.

  (** *** jTmjp (sequential.py:290-347, skipconnection.py:179-226, maxpool2d.py:224-304) *)
  Section JTmjp.
    Variable f : module K -> tst -> num -> option num -> tvalue -> wrt -> bool -> bool -> bool -> tst * res tvalue.
    Fixpoint t_seq_jTmjp_in (hooks : bool) (fm : list num) (ms : list (module K)) (ks : list tst) (k : nat)
      (v : tvalue) (fd td db : bool) : list tst * res tvalue :=
      match ms with
      | [] => ([], Ok v)
      | m :: ms =>
          let '(s, ks) := t_split ks in
          let '(ks, r) := t_seq_jTmjp_in hooks fm ms ks (S k) v fd td db in
          match (v <- r ;; q <- t_fmap2 hooks fm k ;; Ok (v, q)) with
          | Raise e => (s :: ks, Raise e)
          | Ok (v, (x, y)) =>
              let '(s, r) := f m s x (Some y) v Input (match ms with [] => fd | _ => db end)
                               (if Nat.eqb k 0 then td else db) db in
              (s :: ks, r)
          end
      end.
    Fixpoint t_seq_jTmjp_w (hooks : bool) (fm : list num) (ms : list (module K)) (ks : list tst) (k : nat)
      (v : tvalue) (fd td db : bool) : list tst * res (list tvalue * tvalue) :=
      match ms with
      | [] => ([], Ok ([], v))
      | m :: ms =>
          let '(s, ks) := t_split ks in
          let '(ks, r) := t_seq_jTmjp_w hooks fm ms ks (S k) v fd td db in
          match (a <- r ;; q <- t_fmap2 hooks fm k ;; Ok (a, q)) with
          | Raise e => (s :: ks, Raise e)
          | Ok (vs, v, (x, y)) =>
              let fd' := match ms with [] => fd | _ => db end in
              let '(s, r) := f m s x (Some y) v Weight fd' td db in
              match r with
              | Raise e => (s :: ks, Raise e)
              | Ok vk =>
                  let vs := match vk with TN => vs | t => t :: vs end in
                  if Nat.eqb k 0 then (s :: ks, Ok (vs, v))
                  else let '(s, r) := f m s x (Some y) v Input fd' db db in
                       (s :: ks, v <- r ;; Ok (vs, v))
              end
          end
      end.
  End JTmjp.
  (** maxpool2d.py:297: the diagonal to diagonal mode fills zeros_like(x) *)
  Definition t_pool_jTmjp (x y : num) (m : option num) (w : wrt) (fd td : bool) : res (option num) :=
    let '(m, fd) := match m with Some m => (m, fd) | None => (like y, true) end in
    match w with
    | Input => if (fd && td)%bool then some (put (dt x) m) else some (put dd m)
    | _ => Ok None
    end.
  Fixpoint t_jTmjp (m : module K) (s : tst) (x : num) (val : option num) (mat : tvalue) (w : wrt) (fd td db : bool)
    {struct m} : tst * res tvalue :=
    match m with
    | Leaf l => (s, mt <- t_to_opt mat ;; r <- t_leaf_jTmjp l x val mt w fd td db ;; Ok (t_of_opt r))
    | MaxPool _ =>
        (s, mt <- t_to_opt mat ;;
            r <- t_pool_jTmjp x (match val with Some v => v | None => x end) mt w fd td ;; Ok (t_of_opt r))
    | Seq hooks ms =>
        if db_ok fd td db then
          let '(s, r) := t_ensure m s x val in
          match r with
          | Raise e => (s, Raise e)
          | Ok _ =>
              let '(mt, fd) := match mat with TN => (TT (like x), true) | v => (v, fd) end in
              match w with
              | Weight =>
                  let '(ks, r) := t_seq_jTmjp_w t_jTmjp hooks (t_fm s) ms (t_kids s) 0 mt fd td db in
                  (TSt (t_fm s) ks,
                   '(vs, _) <- r ;;
                   match vs with
                   | [] => Ok TN
                   | _ => if td then ts <- mapM t_to_tensor vs ;; Ok (t_of_opt (t_cat ts)) else Ok (TL vs)
                   end)
              | _ =>
                  let '(ks, r) := t_seq_jTmjp_in t_jTmjp hooks (t_fm s) ms (t_kids s) 0 mt fd td db in
                  (TSt (t_fm s) ks, v <- r ;; match w with Input => Ok v | _ => Ok TN end)
              end
          end
        else (s, Raise AssertionError)
    | Skip F =>
        if db_ok fd td db then
          let '(s, r) := t_ensure m s x val in
          match (y <- r ;;
                 match mat with
                 | TN => Ok (y, like y, true)
                 | v => t <- t_to_tensor v ;; Ok (y, t, fd)
                 end) with
          | Raise e => (s, Raise e)
          | Ok (y, mt, fd) =>
              let '(k, r) := t_jTmjp F (t_kid s) x (Some y) (TT mt) w fd td db in
              let s := t_set_kid s k in
              match r with
              | Raise e => (s, Raise e)
              | Ok j =>
                  match w with
                  | Input =>
                      if fd then (s, j <- t_to_tensor j ;; Ok (TT (elem j mt)))
                      else
                        let '(k, r) := t_mjp F (t_kid s) x (Some y) (Some mt) w in
                        let s := t_set_kid s k in
                        match (mj <- r ;; need mj) with
                        | Raise e => (s, Raise e)
                        | Ok mj =>
                            let '(k, r) := t_mjp F (t_kid s) x (Some y) (Some mt) w in
                            let s := t_set_kid s k in
                            (s, jm <- r ;; jm <- need jm ;; j <- t_to_tensor j ;;
                                Ok (TT (elem (elem (elem j mj) jm) mt)))
                        end
                  | Weight => (s, Ok j)
                  | Other => (s, Ok TN)
                  end
              end
          end
        else (s, Raise AssertionError)
    end.
End Dtype.
