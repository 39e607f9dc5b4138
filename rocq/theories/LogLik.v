(** Model of nnj/log_likelihoods.py. *)
From Coq Require Import String Ascii List Arith ZArith Lia Bool.
From Verif Require Import Scalar Tensor Conv Abstract Simple LinearLayer ConvLayer PoolLayer Module.
Import ListNotations.
Local Open Scope nat_scope.
Local Open Scope list_scope.
Local Open Scope string_scope.

(** The values of aggregate_batch: None, "return all", "sum", "average", and any other string. *)
Inductive agg := AggNone | AggAll | AggSum | AggAverage | AggOther.
(** The values of metric_shape: "full", "diag", any other string. *)
Inductive mshape := MFull | MDiag | MShapeOther.
(** The values of metric_backprop: "exact", "approx", any other string. *)
Inductive mbackprop := MExact | MApprox | MBackpropOther.

Record loglik := { ll_agg : agg; ll_shape : mshape; ll_backprop : mbackprop }.

(** log_likelihoods.py:10-24: the constructor shared by the three classes.  Omitted arguments take the
    defaults "return all", "diag", "exact". *)
Definition ll_init (a : agg) (s : mshape) (p : mbackprop) : res loglik :=
  check (match a with AggNone | AggSum | AggAverage => true | _ => false end) AssertionError
    (check (match s with MFull | MDiag => true | _ => false end) AssertionError
       (check (match p with MExact | MApprox => true | _ => false end) AssertionError
          (Ok {| ll_agg := a; ll_shape := s; ll_backprop := p |}))).

(** The three likelihood classes. *)
Inductive lik := LogGaussian | LogBinaryBernoulli | LogBernoulli.

Section LogLik.
  Context {K} `{Num K}.
  Notation gt := (get (@n0 K _)).
  Notation T := (tensor K).

  (** torch.mean(t) and torch.mean(t, dim=0) *)
  Definition mean_all (t : T) : T := emap (fun a => ndiv a (nnat (numel (shape t)))) (sum_all t).
  Definition mean0 (t : T) : T := emap (fun a => ndiv a (nnat (dim t 0))) (sum0 t).

  (** log_likelihoods.py:37-42 (and 109-114, 184-189) *)
  Definition agg_scalar (l : loglik) (t : T) : option T :=
    match ll_agg l with
    | AggAll => Some t
    | AggSum => Some (sum_all t)
    | AggAverage => Some (mean_all t)
    | _ => None
    end.
  (** log_likelihoods.py:59-64 (and 132-137, 210-215): torch.sum(None, dim=0) raises *)
  Definition agg_rows (l : loglik) (t : option T) : res (option T) :=
    match ll_agg l with
    | AggAll => Ok t
    | AggSum => t <- need t ;; Ok (Some (sum0 t))
    | AggAverage => t <- need t ;; Ok (Some (mean0 t))
    | _ => Ok None
    end.
  (** log_likelihoods.py:88-93 (and 164-169, 256-261): torch.sum(list, dim=0) raises *)
  Definition agg_value (l : loglik) (v : value K) : res (value K) :=
    match ll_agg l with
    | AggAll => Ok v
    | AggSum => t <- to_tensor v ;; Ok (VT (sum0 t))
    | AggAverage => t <- to_tensor v ;; Ok (VT (mean0 t))
    | _ => Ok VNone
    end.

  (** assert val.shape == target.shape; target=None has no attribute shape *)
  Definition same_shape (val : T) (target : option T) : res T :=
    match target with
    | None => Raise AttributeError
    | Some t => check (shape_eqb (shape val) (shape t)) AssertionError (Ok t)
    end.

  (** f summed along the last dimension, then .unsqueeze(-1).expand(val.shape).  Simplification: a
      0-dimensional tensor raises. *)
  Definition last_sum (f : K -> K) (g : K -> K) (t : T) : res T :=
    match shape t with
    | [] => Raise IndexError
    | s => let r := List.length s - 1 in
           Ok (tab s (fun idx => g (bsum (nth r s 0) (fun j => f (gt t (set_nth r j idx))))))
    end.
  (** exp_val / normalization (log_likelihoods.py:204-206, 231-233) *)
  Definition softmax (val : T) : res T :=
    n <- last_sum nexp (fun a => a) val ;; tdiv (emap nexp val) n.
  (** torch.exp(val) / (1.0 + torch.exp(val)) (log_likelihoods.py:129, 151) *)
  Definition binary_prob (val : T) : T := emap (fun a => ndiv (nexp a) (nadd n1 (nexp a))) val.

  (** the entries whose sum is the log-likelihood: log_likelihoods.py:34, 104-107, 180-182.
      torch.logsumexp is taken at its mathematical value ln (sum of exp). *)
  Definition ll_terms (k : lik) (val target : T) : res T :=
    match k with
    | LogGaussian =>
        d <- tsub val target ;;
        Ok (emap (fun a => nmul (nopp (ndiv n1 (nnat 2))) (nmul a a)) d)
    | LogBinaryBernoulli =>
        let z := emap (fun a => nln (nadd (nexp a) (nexp n0))) val in
        let p0 := emap (fun a => nsub n0 a) z in
        p1 <- tsub val z ;;
        a <- tmul target p1 ;; c <- tmul (emap (fun a => nsub n1 a) target) p0 ;; tadd a c
    | LogBernoulli =>
        z <- last_sum nexp nln val ;; lp <- tsub val z ;; tmul target lp
    end.

  (** forward: log_likelihoods.py:29-42, 98-114, 174-189 *)
  Definition ll_forward (k : lik) (l : loglik) (m : module K) (s : st K) (x : T) (target : option T)
    : st K * res (option T) :=
    match size 0 x with
    | Raise e => (s, Raise e)
    | Ok b =>
        let '(s, r) := forward m s x in
        (s, val <- r ;; target <- same_shape val target ;;
            t <- ll_terms k val target ;;
            t <- flat b t ;; t <- sum1 t ;; Ok (agg_scalar l t))
    end.

  (** the derivative of the log-likelihood in the output: log_likelihoods.py:56, 129-130, 204-208 *)
  Definition residual (k : lik) (val target : T) : res T :=
    match k with
    | LogGaussian => tsub target val
    | LogBinaryBernoulli => tsub target (binary_prob val)
    | LogBernoulli => p <- softmax val ;; tsub target p
    end.

  (** gradient: log_likelihoods.py:45-64, 117-137, 192-215 *)
  Definition ll_gradient (k : lik) (l : loglik) (m : module K) (s : st K) (x : T) (target : option T)
    (w : wrt) : st K * res (option T) :=
    match size 0 x with
    | Raise e => (s, Raise e)
    | Ok b =>
        let '(s, r) := forward m s x in
        match (val <- r ;; target <- same_shape val target ;;
               rs <- residual k val target ;; rs <- flat b rs ;; Ok (val, rs)) with
        | Raise e => (s, Raise e)
        | Ok (val, rs) =>
            let '(s, r) := vjp m s x (Some val) rs w in (s, g <- r ;; agg_rows l g)
        end
    end.

  (** the Hessian in the output and whether it is diagonal: log_likelihoods.py:78, 151-153, 226-246.
      In LogBernoulli.ggn l = val[0].numel() / c is a float, so the branch l != 1 always ends in
      reshape(b, c, c, l) with a float argument: TypeError. *)
  Definition out_hessian (k : lik) (b : nat) (val : T) : res (T * bool) :=
    match k with
    | LogGaussian => h <- flat b (emap nopp (ones (shape val))) ;; Ok (h, true)
    | LogBinaryBernoulli =>
        h <- flat b (emap (fun p => nsub (nmul p p) p) (binary_prob val)) ;; Ok (h, true)
    | LogBernoulli =>
        n <- numel0 val ;;
        let c := last (shape val) 0 in
        check (negb (Nat.eqb c 0)) ValueError (* ZeroDivisionError *)
          (p <- softmax val ;;
           d <- diag_embed p ;;
           let r := List.length (shape val) in
           let outer := tab (shape val ++ [c])
                          (fun idx => nmul (gt p (firstn r idx))
                                        (gt p (firstn (r - 1) idx ++ [nth r idx 0]))) in
           h <- tsub outer d ;;
           if Nat.eqb n c then h <- reshape [b; c; c] h ;; Ok (h, false)
           else if Nat.eqb r 1 then Raise IndexError else Raise TypeError)
    end.

  (** ggn: log_likelihoods.py:67-93, 140-169, 218-261 (the target argument is not read) *)
  Definition ll_ggn (k : lik) (l : loglik) (m : module K) (s : st K) (x : T) (w : wrt)
    : st K * res (value K) :=
    match size 0 x with
    | Raise e => (s, Raise e)
    | Ok b =>
        let '(s, r) := forward m s x in
        match (val <- r ;; '(h, fd) <- out_hessian k b val ;; Ok (val, h, fd)) with
        | Raise e => (s, Raise e)
        | Ok (val, h, fd) =>
            let '(s, r) := jTmjp m s x (Some val) (VT h) w fd
                             (match ll_shape l with MDiag => true | _ => false end)
                             (match ll_backprop l with MApprox => true | _ => false end) in
            (s, v <- r ;; agg_value l v)
        end
    end.
End LogLik.
