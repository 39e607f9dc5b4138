(** Model of nnj/abstract_jacobian.py and nnj/abstract_diagonal_jacobian.py: the products every layer
    inherits, as functions of the layer's own [jacobian]. *)
From Coq Require Import String Ascii List Arith ZArith Lia Bool.
From Verif Require Import Scalar Tensor.
Import ListNotations.
Local Open Scope nat_scope.
Local Open Scope list_scope.
Local Open Scope string_scope.

(** the [wrt] argument: "input", "weight", or any other string *)
Inductive wrt := Input | Weight | Other.

(** tuple unpacking of a shape: b, c1 = x.shape etc. *)
Definition unpack2 {A} (t : tensor A) : res (nat * nat) :=
  match shape t with [a; b] => Ok (a, b) | _ => Raise ValueError end.
Definition unpack3 {A} (t : tensor A) : res (nat * nat * nat) :=
  match shape t with [a; b; c] => Ok (a, b, c) | _ => Raise ValueError end.
Definition unpack4 {A} (t : tensor A) : res (nat * nat * nat * nat) :=
  match shape t with [a; b; c; d] => Ok (a, b, c, d) | _ => Raise ValueError end.
(** t.shape[k] *)
Definition size {A} (k : nat) (t : tensor A) : res nat :=
  match nth_error (shape t) k with Some n => Ok n | None => Raise IndexError end.

(** a matrix argument that is None where torch needs a tensor *)
Definition need {A} (m : option A) : res A :=
  match m with Some t => Ok t | None => Raise TypeError end.

Definition some {A} (r : res A) : res (option A) := t <- r ;; Ok (Some t).

Section Abstract.
  Context {K} `{Num K}.
  Notation gt := (get (@n0 K _)).
  Notation T := (tensor K).
  Implicit Types x : T. Implicit Types val : option T.

  Definition sq (t : T) : T := emap (fun a => (a * a)%K) t.
  (** t.reshape(t.shape[0], -1) *)
  Definition flat (b : nat) (t : T) : res T := reshape_m1 [b] t.

  (** *** AbstractJacobian (abstract_jacobian.py) *)
  Section Jac.
    (** self.jacobian(x, val, wrt) *)
    Variable jac : T -> option T -> wrt -> res (option T).

    (** abstract_jacobian.py:45-70 *)
    Definition aj_jvp x val (vec : T) w : res (option T) :=
      j <- jac x val w ;;
      match j with None => Ok None | Some j => some (einsum "bij,bj->bi" [j; vec]) end.
    (** abstract_jacobian.py:73-86 *)
    Definition aj_jmp x val (mat : option T) w : res (option T) :=
      j <- jac x val w ;;
      match j with
      | None => Ok None
      | Some j => m <- need mat ;; some (einsum "bij,bjk->bik" [j; m])
      end.
    (** abstract_jacobian.py:89-135 *)
    Definition aj_jmjTp x val (mat : option T) w (from_diag to_diag diag_backprop : bool) : res (option T) :=
      let '(from_diag, to_diag) := if diag_backprop then (true, true) else (from_diag, to_diag) in
      j <- jac x val w ;;
      match j with
      | None => Ok None
      | Some j =>
          m <- need mat ;;
          match from_diag, to_diag with
          | false, false => some (einsum "bij,bjk,blk->bil" [j; m; j])
          | true, false => some (einsum "bij,bj,blj->bil" [j; m; j])
          | false, true => some (einsum "bij,bjk,bik->bi" [j; m; j])
          | true, true => some (einsum "bij,bj,bij->bi" [j; m; j])
          end
      end.
    (** abstract_jacobian.py:142-167 *)
    Definition aj_vjp x val (vec : T) w : res (option T) :=
      j <- jac x val w ;;
      match j with None => Ok None | Some j => some (einsum "bi,bij->bj" [vec; j]) end.
    (** abstract_jacobian.py:170-183 *)
    Definition aj_mjp x val (mat : option T) w : res (option T) :=
      j <- jac x val w ;;
      match j with
      | None => Ok None
      | Some j => m <- need mat ;; some (einsum "bij,bjk->bik" [m; j])
      end.
    (** abstract_jacobian.py:186-232; note the index strings of the three diagonal modes *)
    Definition aj_jTmjp x val (mat : option T) w (from_diag to_diag diag_backprop : bool) : res (option T) :=
      let '(from_diag, to_diag) := if diag_backprop then (true, true) else (from_diag, to_diag) in
      j <- jac x val w ;;
      match j with
      | None => Ok None
      | Some j =>
          m <- need mat ;;
          match from_diag, to_diag with
          | false, false => some (einsum "bji,bjk,bkl->bil" [j; m; j])
          | true, false => some (einsum "bij,bj,bjl->bil" [j; m; j])
          | false, true => some (einsum "bij,bjk,bki->bi" [j; m; j])
          | true, true => some (einsum "bij,bj,bji->bi" [j; m; j])
          end
      end.
  End Jac.

  (** *** AbstractDiagonalJacobian (abstract_diagonal_jacobian.py) *)
  (** torch.einsum("bi,bi...->bi...", v, m) : m has at least two dimensions *)
  Definition einsum_bi_bidots (v m : T) : res T :=
    match shape v, shape m with
    | [b; i], b' :: i' :: _ =>
        if shape_eqb [b; i] [b'; i']
        then Ok (tab (shape m) (fun idx => nmul (gt v [nth 0 idx 0; nth 1 idx 0]) (gt m idx)))
        else Raise RuntimeError
    | _, _ => Raise RuntimeError
    end.

  Section Diag.
    (** self.jacobian(x, val, wrt, diag) and self.forward(x) *)
    Variable jac : T -> option T -> wrt -> bool -> res (option T).
    Variable fwd : T -> res T.

    (** abstract_diagonal_jacobian.py:32-45 *)
    Definition ad_jvp x val (vec : T) w : res (option T) :=
      j <- jac x val w true ;;
      match j with None => Ok None | Some j => some (einsum "bj,bj->bj" [j; vec]) end.
    (** abstract_diagonal_jacobian.py:48-63 *)
    Definition ad_jmp x val (mat : option T) w : res (option T) :=
      match mat with
      | None => jac x val w false
      | Some m =>
          j <- jac x val w true ;;
          match j with None => Ok None | Some j => some (einsum_bi_bidots j m) end
      end.
    (** the four modes shared by jmjTp (abstract_diagonal_jacobian.py:88-101) and jTmjp (:164-177) *)
    Definition ad_modes (j m : T) (from_diag to_diag : bool) : res (option T) :=
      match from_diag, to_diag with
      | false, false => some (einsum "bi,bik,bk->bik" [j; m; j])
      | true, false => some (e <- einsum "bi,bi->bi" [sq j; m] ;; diag_embed e)
      | false, true => some (einsum "bi,bii,bi->bi" [j; m; j])
      | true, true => some (einsum "bi,bi->bi" [sq j; m])
      end.
    (** abstract_diagonal_jacobian.py:66-101; diag_backprop is not used *)
    Definition ad_jmjTp x val (mat : option T) w (from_diag to_diag diag_backprop : bool) : res (option T) :=
      b <- size 0 x ;;
      val <- match val with Some v => Ok v | None => fwd x end ;;
      '(m, from_diag) <- match mat with
                         | Some m => Ok (m, from_diag)
                         | None => m <- flat b (ones (shape x)) ;; Ok (m, true)
                         end ;;
      j <- jac x (Some val) w true ;;
      match j with None => Ok None | Some j => ad_modes j m from_diag to_diag end.
    (** abstract_diagonal_jacobian.py:108-121 *)
    Definition ad_vjp x val (vec : T) w : res (option T) :=
      j <- jac x val w true ;;
      match j with None => Ok None | Some j => some (einsum "bi,bi->bi" [vec; j]) end.
    (** abstract_diagonal_jacobian.py:124-139 *)
    Definition ad_mjp x val (mat : option T) w : res (option T) :=
      match mat with
      | None => jac x val w false
      | Some m =>
          j <- jac x val w true ;;
          match j with None => Ok None | Some j => some (einsum "bij,bj->bij" [m; j]) end
      end.
    (** abstract_diagonal_jacobian.py:142-177; diag_backprop is not used *)
    Definition ad_jTmjp x val (mat : option T) w (from_diag to_diag diag_backprop : bool) : res (option T) :=
      b <- size 0 x ;;
      val <- match val with Some v => Ok v | None => fwd x end ;;
      '(m, from_diag) <- match mat with
                         | Some m => Ok (m, from_diag)
                         | None => m <- flat b (ones (shape val)) ;; Ok (m, true)
                         end ;;
      j <- jac x (Some val) w true ;;
      match j with None => Ok None | Some j => ad_modes j m from_diag to_diag end.
  End Diag.
End Abstract.
