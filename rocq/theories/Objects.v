(** A second model of the composite modules of nnj, in which a layer is a Python object that may be
    placed at several positions of a network: nnj/sequential.py, nnj/skipconnection.py, nnj/maxpool2d.py.

    Every node of the tree carries the identity of its object; two nodes with the same identity are the
    same object.  The mutable attributes live in one heap, indexed by the identity, so a call made at
    one position is seen at the others.  The forward hooks that the constructors of the Sequentials
    registered are an argument [H]: [H o] lists the Sequentials that have registered a hook on the
    object o, once per registration (sequential.py:25-28 registers one hook for each position).

    Otherwise the definitions are those of Module.v, and follow the same lines of /repo; the layers
    without mutable attributes are those of Module.v. *)
From Coq Require Import String Ascii List Arith ZArith Lia Bool.
From Verif Require Import Scalar Tensor Conv Abstract Simple LinearLayer ConvLayer PoolLayer Module.
Import ListNotations.
Local Open Scope nat_scope.
Local Open Scope list_scope.
Local Open Scope string_scope.

Section Objects.
  Context {K} `{Num K}.
  Notation T := (tensor K).

  (** the objects of nnj/__init__.py: identity, then what Module.v has *)
  Inductive node :=
  | OLeaf (o : nat) (l : leaf K)
  | OPool (o : nat) (cfg : pool_cfg)
  | OSeq (o : nat) (hooks : bool) (ms : list node)
  | OSkip (o : nat) (F : node).
  (** id(module) *)
  Definition oid (m : node) : nat := match m with OLeaf o _ | OPool o _ | OSeq o _ _ | OSkip o _ => o end.
  (** the network without the identities *)
  Fixpoint erase (m : node) : module K :=
    match m with
    | OLeaf _ l => Leaf l
    | OPool _ cfg => MaxPool cfg
    | OSeq _ h ms => Seq h (map erase ms)
    | OSkip _ F => Skip (erase F)
    end.

  (** self.feature_maps of the Sequential objects (sequential.py:22, 32) and self.idx of the MaxPool2d
      objects (maxpool2d.py:14, 22) *)
  Record heap := { h_fm : nat -> list T; h_idx : nat -> option (tensor nat) }.
  (** after the constructors *)
  Definition heap0 : heap := {| h_fm := fun _ => []; h_idx := fun _ => None |}.
  Definition set_fm (g : heap) (o : nat) (l : list T) : heap :=
    {| h_fm := fun p => if Nat.eqb p o then l else h_fm g p; h_idx := h_idx g |}.
  Definition set_idx (g : heap) (o : nat) (i : tensor nat) : heap :=
    {| h_fm := h_fm g; h_idx := fun p => if Nat.eqb p o then Some i else h_idx g p |}.

  (** the hooks registered on each object *)
  Variable H0 : nat -> list nat.

  (** one hook (sequential.py:27): self.feature_maps.append(o.detach()) *)
  Definition push (y : T) (g : heap) (q : nat) : heap := set_fm g q (h_fm g q ++ [y])%list.
  (** torch.nn.Module.__call__: forward, then the registered hooks in order; none run when forward raises *)
  Definition call (fw : node -> heap -> T -> heap * res T) (m : node) (g : heap) (x : T) : heap * res T :=
    let '(g, r) := fw m g x in
    match r with
    | Raise e => (g, Raise e)
    | Ok y => (fold_left (push y) (H0 (oid m)) g, Ok y)
    end.

  (** *** forward *)
  Section Fwd.
    Variable fw : node -> heap -> T -> heap * res T.
    (** sequential.py:33-36 *)
    Fixpoint oseq_forward (ms : list node) (g : heap) (x : T) : heap * res T :=
      match ms with
      | [] => (g, Ok x)
      | m :: ms =>
          let '(g, r) := call fw m g x in
          match r with
          | Raise e => (g, Raise e)
          | Ok y => oseq_forward ms g y
          end
      end.
  End Fwd.

  (** forward (sequential.py:30-36, skipconnection.py:17-18, maxpool2d.py:16-27) *)
  Fixpoint oforward (m : node) (g : heap) (x : T) {struct m} : heap * res T :=
    match m with
    | OLeaf _ l => (g, leaf_forward l x)
    | OPool o cfg =>
        match max_pool2d cfg x with
        | Ok (val, idx) => (set_idx g o idx, Ok val)
        | Raise e => (g, Raise e)
        end
    | OSeq o hooks ms => oseq_forward oforward ms (if hooks then set_fm g o [x] else g) x
    | OSkip _ F =>
        let '(g, r) := call oforward F g x in
        (g, y <- r ;; cat n0 1 [x; y])
    end.

  (** if val is None: val = self.forward(x) *)
  Definition oensure (m : node) (g : heap) (x : T) (val : option T) : heap * res T :=
    match val with Some v => (g, Ok v) | None => oforward m g x end.

  (** *** vjp *)
  Section Vjp.
    Variable f : node -> heap -> T -> option T -> T -> wrt -> heap * res (option T).
    (** sequential.py:236-246 with wrt="input" *)
    Fixpoint oseq_vjp_in (o : nat) (hooks : bool) (ms : list node) (g : heap) (k : nat) (v : T) : heap * res T :=
      match ms with
      | [] => (g, Ok v)
      | m :: ms =>
          let '(g, r) := oseq_vjp_in o hooks ms g (S k) v in
          match (v <- r ;; p <- fmap2 hooks (h_fm g o) k ;; Ok (v, p)) with
          | Raise e => (g, Raise e)
          | Ok (v, (x, y)) => let '(g, r) := f m g x (Some y) v Input in (g, r <- r ;; need r)
          end
      end.
    (** sequential.py:236-246 with wrt="weight" *)
    Fixpoint oseq_vjp_w (o : nat) (hooks : bool) (ms : list node) (g : heap) (k : nat) (v : T) : heap * res (list T * T) :=
      match ms with
      | [] => (g, Ok ([], v))
      | m :: ms =>
          let '(g, r) := oseq_vjp_w o hooks ms g (S k) v in
          match (a <- r ;; p <- fmap2 hooks (h_fm g o) k ;; Ok (a, p)) with
          | Raise e => (g, Raise e)
          | Ok (vs, v, (x, y)) =>
              let '(g, r) := f m g x (Some y) v Weight in
              match r with
              | Raise e => (g, Raise e)
              | Ok vk =>
                  let vs := match vk with Some t => t :: vs | None => vs end in
                  if Nat.eqb k 0 then (g, Ok (vs, v))
                  else let '(g, r) := f m g x (Some y) v Input in
                       (g, r <- r ;; v <- need r ;; Ok (vs, v))
              end
          end
      end.
  End Vjp.

  (** vjp (sequential.py:218-250, skipconnection.py:141-156, maxpool2d.py:150-182) *)
  Fixpoint ovjp (m : node) (g : heap) (x : T) (val : option T) (v : T) (w : wrt) {struct m} : heap * res (option T) :=
    match m with
    | OLeaf _ l => (g, leaf_vjp l x val v w)
    | OPool o cfg =>
        match w with
        | Input => let '(g, r) := oensure m g x val in (g, val <- r ;; some (pool_vjp (h_idx g o) x val v))
        | _ => (g, Ok None)
        end
    | OSeq o hooks ms =>
        if wrt_ok w then
          let '(g, r) := oensure m g x val in
          match r with
          | Raise e => (g, Raise e)
          | Ok _ =>
              match w with
              | Weight =>
                  let '(g, r) := oseq_vjp_w ovjp o hooks ms g 0 v in
                  (g, '(vs, _) <- r ;; match vs with [] => Ok None | _ => some (cat n0 1 vs) end)
              | _ =>
                  let '(g, r) := oseq_vjp_in ovjp o hooks ms g 0 v in
                  (g, some r)
              end
          end
        else (g, Raise AssertionError)
    | OSkip _ F =>
        match (l <- numel0 x ;; t <- val_tail l val ;; vt <- slice_from n0 1 l v ;; Ok (l, t, vt)) with
        | Raise e => (g, Raise e)
        | Ok (l, t, vt) =>
            let '(g, r) := ovjp F g x t vt w in
            (g,
             r <- r ;;
             match w with
             | Input => a <- slice n0 1 0 l v ;; r <- need r ;; some (tadd a r)
             | Weight => Ok r
             | Other => Ok None
             end)
        end
    end.

  (** *** mjp *)
  Section Mjp.
    Variable f : node -> heap -> T -> option T -> option T -> wrt -> heap * res (option T).
    (** sequential.py:273-283 with wrt="input" *)
    Fixpoint oseq_mjp_in (o : nat) (hooks : bool) (ms : list node) (g : heap) (k : nat) (v : option T)
      : heap * res (option T) :=
      match ms with
      | [] => (g, Ok v)
      | m :: ms =>
          let '(g, r) := oseq_mjp_in o hooks ms g (S k) v in
          match (v <- r ;; p <- fmap2 hooks (h_fm g o) k ;; Ok (v, p)) with
          | Raise e => (g, Raise e)
          | Ok (v, (x, y)) => f m g x (Some y) v Input
          end
      end.
    (** sequential.py:273-283 with wrt="weight" *)
    Fixpoint oseq_mjp_w (o : nat) (hooks : bool) (ms : list node) (g : heap) (k : nat) (v : option T)
      : heap * res (list T * option T) :=
      match ms with
      | [] => (g, Ok ([], v))
      | m :: ms =>
          let '(g, r) := oseq_mjp_w o hooks ms g (S k) v in
          match (a <- r ;; p <- fmap2 hooks (h_fm g o) k ;; Ok (a, p)) with
          | Raise e => (g, Raise e)
          | Ok (vs, v, (x, y)) =>
              let '(g, r) := f m g x (Some y) v Weight in
              match r with
              | Raise e => (g, Raise e)
              | Ok vk =>
                  let vs := match vk with Some t => t :: vs | None => vs end in
                  if Nat.eqb k 0 then (g, Ok (vs, v))
                  else let '(g, r) := f m g x (Some y) v Input in
                       (g, v <- r ;; Ok (vs, v))
              end
          end
      end.
  End Mjp.

  (** maxpool2d.py:30-54 *)
  Definition opool_jacobian (o : nat) (cfg : pool_cfg) (g : heap) (x : T) (val : option T) (w : wrt) : heap * res (option T) :=
    match w with
    | Input => let '(g, r) := oensure (OPool o cfg) g x val in
               (g, val <- r ;; some (pool_jacobian (h_idx g o) x val))
    | _ => (g, Ok None)
    end.

  (** skipconnection.py:21-38, given self._F.jacobian *)
  Definition oskip_jacobian (o : nat) (F : node) (jacF : heap -> option T -> heap * res (option T))
    (g : heap) (x : T) (val : option T) (w : wrt) : heap * res (option T) :=
    let '(g, r) := jacF g val in
    match (jac <- r ;; b <- size 0 x ;; l <- numel0 x ;; Ok (jac, b, l)) with
    | Raise e => (g, Raise e)
    | Ok (jac, b, l) =>
        let '(g, r) := oensure (OSkip o F) g x val in
        (g, _ <- r ;;
            match w with
            | Input => o <- reshape [b; l] (ones (shape x)) ;;
                       id <- diag_embed o ;;
                       jac <- need jac ;; some (cat n0 1 [id; jac])
            | Weight => jac <- need jac ;; some (cat n0 1 [zeros [b; l; n_params (erase F)]; jac])
            | Other => Ok None
            end)
    end.

  (** mjp (sequential.py:253-287, skipconnection.py:159-176, maxpool2d.py:185-221) *)
  Fixpoint omjp (m : node) (g : heap) (x : T) (val : option T) (mat : option T) (w : wrt) {struct m}
    : heap * res (option T) :=
    match m with
    | OLeaf _ l => (g, leaf_mjp l x val mat w)
    | OPool o cfg =>
        match mat with
        | None => opool_jacobian o cfg g x val w
        | Some mt =>
            match w with
            | Input => let '(g, r) := oensure m g x val in (g, val <- r ;; some (pool_mjp (h_idx g o) x val mt))
            | _ => (g, Ok None)
            end
        end
    | OSeq o hooks ms =>
        if wrt_ok w then
          let '(g, r) := oensure m g x val in
          match (y <- r ;;
                 match mat with
                 | Some mt => Ok mt
                 | None => match shape y with
                           | [] => Raise IndexError
                           | b :: sh => Ok (eye_repeat b (numel sh))
                           end
                 end) with
          | Raise e => (g, Raise e)
          | Ok mt =>
              match w with
              | Weight =>
                  let '(g, r) := oseq_mjp_w omjp o hooks ms g 0 (Some mt) in
                  (g, '(vs, _) <- r ;; match vs with [] => Ok None | _ => some (cat n0 2 vs) end)
              | _ => oseq_mjp_in omjp o hooks ms g 0 (Some mt)
              end
          end
        else (g, Raise AssertionError)
    | OSkip o F =>
        match mat with
        | None => oskip_jacobian o F (fun g val => omjp F g x val None w) g x val w
        | Some mt =>
            match (l <- numel0 x ;; t <- val_tail l val ;; vt <- slice_from n0 2 l mt ;; Ok (l, t, vt)) with
            | Raise e => (g, Raise e)
            | Ok (l, t, vt) =>
                let '(g, r) := omjp F g x t (Some vt) w in
                (g,
                 r <- r ;;
                 match w with
                 | Input => a <- slice n0 2 0 l mt ;; r <- need r ;; some (tadd a r)
                 | Weight => Ok r
                 | Other => Ok None
                 end)
            end
        end
    end.

  (** jacobian (sequential.py:39-41, skipconnection.py:21-38, maxpool2d.py:30-54) *)
  Definition ojacobian (m : node) (g : heap) (x : T) (val : option T) (w : wrt) : heap * res (option T) :=
    match m with
    | OLeaf _ l => (g, leaf_jacobian l x val w)
    | OPool o cfg => opool_jacobian o cfg g x val w
    | OSeq _ _ _ => omjp m g x val None w
    | OSkip o F => oskip_jacobian o F (fun g val => omjp F g x val None w) g x val w
    end.

  (** *** jvp *)
  Section Jvp.
    Variable f : node -> heap -> T -> option T -> T -> wrt -> heap * res (option T).
    (** sequential.py:61-65 *)
    Fixpoint oseq_jvp_in (ms : list node) (g : heap) (x : T) (v : T) : heap * res T :=
      match ms with
      | [] => (g, Ok v)
      | m :: ms =>
          let '(g, r) := call oforward m g x in
          match r with
          | Raise e => (g, Raise e)
          | Ok y =>
              let '(g, r) := f m g x (Some y) v Input in
              match (r <- r ;; need r) with
              | Raise e => (g, Raise e)
              | Ok v => oseq_jvp_in ms g y v
              end
          end
      end.
    (** sequential.py:67-82 *)
    Fixpoint oseq_jvp_w (ms : list node) (g : heap) (x : T) (v : T) (p : nat) (acc : option T) : heap * res (option T) :=
      match ms with
      | [] => (g, Ok acc)
      | m :: ms =>
          let '(g, r) := call oforward m g x in
          match r with
          | Raise e => (g, Raise e)
          | Ok y =>
              let '(g, r) := match acc with
                             | None => (g, Ok None)
                             | Some a => f m g x (Some y) a Input
                             end in
              match (acc <- r ;; vp <- slice n0 1 p (p + n_params (erase m)) v ;; Ok (acc, vp)) with
              | Raise e => (g, Raise e)
              | Ok (acc, vp) =>
                  let '(g, r) := f m g x (Some y) vp Weight in
                  match (new <- r ;; accumulate acc new) with
                  | Raise e => (g, Raise e)
                  | Ok acc => oseq_jvp_w ms g y v (p + n_params (erase m)) acc
                  end
              end
          end
      end.
  End Jvp.

  (** jvp (sequential.py:48-82, skipconnection.py:45-62, maxpool2d.py:61-75) *)
  Fixpoint ojvp (m : node) (g : heap) (x : T) (val : option T) (v : T) (w : wrt) {struct m} : heap * res (option T) :=
    match m with
    | OLeaf _ l => (g, leaf_jvp l x val v w)
    | OPool _ cfg => (g, match w with Input => Raise NotImplementedError | _ => Ok None end)
    | OSeq o hooks ms =>
        match w with
        | Input => let '(g, r) := oseq_jvp_in ojvp ms g x v in (g, some r)
        | Weight => oseq_jvp_w ojvp ms g x v 0 None
        | Other => (g, Raise AssertionError)
        end
    | OSkip _ F =>
        match (b <- size 0 x ;; l <- numel0 x ;; t <- val_tail l val ;; Ok (b, l, t)) with
        | Raise e => (g, Raise e)
        | Ok (b, l, t) =>
            let '(g, r) := ojvp F g x t v w in
            (g,
             r <- r ;;
             match w with
             | Input => r <- need r ;; some (cat n0 1 [v; r])
             | Weight => z <- reshape [b; l] (zeros (shape x)) ;; r <- need r ;; some (cat n0 1 [z; r])
             | Other => Ok None
             end)
        end
    end.

  (** *** jmp *)
  Section Jmp.
    Variable f : node -> heap -> T -> option T -> option T -> wrt -> heap * res (option T).
    (** sequential.py:100-104 *)
    Fixpoint oseq_jmp_in (ms : list node) (g : heap) (x : T) (v : option T) : heap * res (option T) :=
      match ms with
      | [] => (g, Ok v)
      | m :: ms =>
          let '(g, r) := call oforward m g x in
          match r with
          | Raise e => (g, Raise e)
          | Ok y =>
              let '(g, r) := f m g x (Some y) v Input in
              match r with
              | Raise e => (g, Raise e)
              | Ok v => oseq_jmp_in ms g y v
              end
          end
      end.
    (** sequential.py:106-121 *)
    Fixpoint oseq_jmp_w (ms : list node) (g : heap) (x : T) (v : T) (p : nat) (acc : option T) : heap * res (option T) :=
      match ms with
      | [] => (g, Ok acc)
      | m :: ms =>
          let '(g, r) := call oforward m g x in
          match r with
          | Raise e => (g, Raise e)
          | Ok y =>
              let '(g, r) := match acc with
                             | None => (g, Ok None)
                             | Some a => f m g x (Some y) (Some a) Input
                             end in
              match (acc <- r ;; vp <- slice n0 1 p (p + n_params (erase m)) v ;;
                     check (Nat.eqb (rank v) 3) IndexError (Ok (acc, vp))) with
              | Raise e => (g, Raise e)
              | Ok (acc, vp) =>
                  let '(g, r) := f m g x (Some y) (Some vp) Weight in
                  match (new <- r ;; accumulate acc new) with
                  | Raise e => (g, Raise e)
                  | Ok acc => oseq_jmp_w ms g y v (p + n_params (erase m)) acc
                  end
              end
          end
      end.
  End Jmp.

  (** jmp (sequential.py:85-121, skipconnection.py:65-84, maxpool2d.py:78-107) *)
  Fixpoint ojmp (m : node) (g : heap) (x : T) (val : option T) (mat : option T) (w : wrt) {struct m}
    : heap * res (option T) :=
    match m with
    | OLeaf _ l => (g, leaf_jmp l x val mat w)
    | OPool o cfg =>
        match mat with
        | None => opool_jacobian o cfg g x val w
        | Some mt =>
            match w with
            | Input => let '(g, r) := oensure m g x val in (g, val <- r ;; some (pool_jmp (h_idx g o) x val mt))
            | _ => (g, Ok None)
            end
        end
    | OSeq o hooks ms =>
        if wrt_ok w then
          match mat with
          | None => ojacobian m g x val w
          | Some mt =>
              match w with
              | Weight => oseq_jmp_w ojmp ms g x mt 0 None
              | _ => oseq_jmp_in ojmp ms g x (Some mt)
              end
          end
        else (g, Raise AssertionError)
    | OSkip _ F =>
        match mat with
        | None => ojacobian m g x val w
        | Some mt =>
            match (b <- size 0 x ;; l <- numel0 x ;; t <- val_tail l val ;; Ok (b, l, t)) with
            | Raise e => (g, Raise e)
            | Ok (b, l, t) =>
                let '(g, r) := ojmp F g x t (Some mt) w in
                (g,
                 r <- r ;;
                 match w with
                 | Input => r <- need r ;; some (cat n0 1 [mt; r])
                 | Weight => c <- size 2 mt ;; r <- need r ;; some (cat n0 1 [zeros [b; l; c]; r])
                 | Other => Ok None
                 end)
            end
        end
    end.

  (** *** jTmjp *)
  Section JTmjp.
    Variable f : node -> heap -> T -> option T -> value K -> wrt -> bool -> bool -> bool -> heap * res (value K).
    (** sequential.py:312-339 with wrt != "weight" *)
    Fixpoint oseq_jTmjp_in (o : nat) (hooks : bool) (ms : list node) (g : heap) (k : nat)
      (v : value K) (fd td db : bool) : heap * res (value K) :=
      match ms with
      | [] => (g, Ok v)
      | m :: ms =>
          let '(g, r) := oseq_jTmjp_in o hooks ms g (S k) v fd td db in
          match (v <- r ;; p <- fmap2 hooks (h_fm g o) k ;; Ok (v, p)) with
          | Raise e => (g, Raise e)
          | Ok (v, (x, y)) =>
              f m g x (Some y) v Input (match ms with [] => fd | _ => db end) (if Nat.eqb k 0 then td else db) db
          end
      end.
    (** sequential.py:312-339 with wrt="weight" *)
    Fixpoint oseq_jTmjp_w (o : nat) (hooks : bool) (ms : list node) (g : heap) (k : nat)
      (v : value K) (fd td db : bool) : heap * res (list (value K) * value K) :=
      match ms with
      | [] => (g, Ok ([], v))
      | m :: ms =>
          let '(g, r) := oseq_jTmjp_w o hooks ms g (S k) v fd td db in
          match (a <- r ;; p <- fmap2 hooks (h_fm g o) k ;; Ok (a, p)) with
          | Raise e => (g, Raise e)
          | Ok (vs, v, (x, y)) =>
              let fd' := match ms with [] => fd | _ => db end in
              let '(g, r) := f m g x (Some y) v Weight fd' td db in
              match r with
              | Raise e => (g, Raise e)
              | Ok vk =>
                  let vs := match vk with VNone => vs | t => t :: vs end in
                  if Nat.eqb k 0 then (g, Ok (vs, v))
                  else let '(g, r) := f m g x (Some y) v Input fd' db db in
                       (g, v <- r ;; Ok (vs, v))
              end
          end
      end.
  End JTmjp.

  (** jTmjp (sequential.py:290-347, skipconnection.py:179-226, maxpool2d.py:224-304) *)
  Fixpoint ojTmjp (m : node) (g : heap) (x : T) (val : option T) (mat : value K) (w : wrt) (fd td db : bool)
    {struct m} : heap * res (value K) :=
    match m with
    | OLeaf _ l => (g, mt <- to_opt mat ;; r <- leaf_jTmjp l x val mt w fd td db ;; Ok (of_opt r))
    | OPool o cfg =>
        let '(g, r) := oensure m g x val in
        (g, y <- r ;; mt <- to_opt mat ;;
            r <- pool_jTmjp (h_idx g o) x y mt w fd td db ;; Ok (of_opt r))
    | OSeq o hooks ms =>
        if db_ok fd td db then
          let '(g, r) := oensure m g x val in
          match (y <- r ;;
                 match mat with
                 | VNone => match shape y with
                            | [] => Raise IndexError
                            | b :: sh => Ok (VT (ones [b; numel sh]), true)
                            end
                 | v => Ok (v, fd)
                 end) with
          | Raise e => (g, Raise e)
          | Ok (mt, fd) =>
              match w with
              | Weight =>
                  let '(g, r) := oseq_jTmjp_w ojTmjp o hooks ms g 0 mt fd td db in
                  (g,
                   '(vs, _) <- r ;;
                   match vs with
                   | [] => Ok VNone
                   | _ => if td then ts <- mapM to_tensor vs ;; c <- cat n0 1 ts ;; Ok (VT c)
                          else Ok (VL vs)
                   end)
              | _ =>
                  let '(g, r) := oseq_jTmjp_in ojTmjp o hooks ms g 0 mt fd td db in
                  (g, v <- r ;; match w with Input => Ok v | _ => Ok VNone end)
              end
          end
        else (g, Raise AssertionError)
    | OSkip _ F =>
        if db_ok fd td db then
          let '(g, r) := oensure m g x val in
          match (y <- r ;;
                 '(mt, fd) <- match mat with
                              | VNone => Ok (ones (shape y), true)
                              | v => t <- to_tensor v ;; Ok (t, fd)
                              end ;;
                 l <- numel0 x ;;
                 t <- slice_from n0 1 l y ;;
                 sub <- slice_from n0 1 l mt ;;
                 sub <- (if fd then Ok sub else slice_from n0 2 l sub) ;;
                 Ok (mt, fd, l, t, sub)) with
          | Raise e => (g, Raise e)
          | Ok (mt, fd, l, t, sub) =>
              let '(g, r) := ojTmjp F g x (Some t) (VT sub) w fd td db in
              match r with
              | Raise e => (g, Raise e)
              | Ok j =>
                  match w with
                  | Input =>
                      if fd then
                        (g, a <- slice n0 1 0 l mt ;;
                            a <- (if td then Ok a else diag_embed a) ;;
                            j <- to_tensor j ;; r <- tadd j a ;; Ok (VT r))
                      else
                        match (a <- slice n0 1 0 l mt ;; slice_from n0 2 l a) with
                        | Raise e => (g, Raise e)
                        | Ok m12 =>
                            let '(g, r) := omjp F g x (Some t) (Some m12) w in
                            match (mj <- r ;; mj <- need mj ;;
                                   a <- slice_from n0 1 l mt ;; a <- slice n0 2 0 l a ;;
                                   a <- transpose12 n0 a ;; Ok (mj, a)) with
                            | Raise e => (g, Raise e)
                            | Ok (mj, m21T) =>
                                let '(g, r) := omjp F g x (Some t) (Some m21T) w in
                                (g, jm <- r ;; jm <- need jm ;; jm <- transpose12 n0 jm ;;
                                    j <- to_tensor j ;;
                                    m11 <- slice n0 1 0 l mt ;; m11 <- slice n0 2 0 l m11 ;;
                                    if td then
                                      mj <- einsum "bii->bi" [mj] ;; jm <- einsum "bii->bi" [jm] ;;
                                      m11 <- einsum "bii->bi" [m11] ;;
                                      r <- tadd j mj ;; r <- tadd r jm ;; r <- tadd r m11 ;; Ok (VT r)
                                    else
                                      r <- tadd j mj ;; r <- tadd r jm ;; r <- tadd r m11 ;; Ok (VT r))
                            end
                        end
                  | Weight => (g, Ok j)
                  | Other => (g, Ok VNone)
                  end
              end
          end
        else (g, Raise AssertionError)
    end.

  (** *** jmjTp *)
  Section JmjTp.
    Variable f : node -> heap -> T -> option T -> value K -> wrt -> bool -> bool -> bool -> heap * res (value K).
    (** sequential.py:149-161 *)
    Fixpoint oseq_jmjTp_in (o : nat) (hooks : bool) (ms : list node) (g : heap) (k : nat)
      (v : value K) (fd td db : bool) : heap * res (value K) :=
      match ms with
      | [] => (g, Ok v)
      | m :: ms =>
          match fmap2 hooks (h_fm g o) k with
          | Raise e => (g, Raise e)
          | Ok (x, y) =>
              let '(g, r) := f m g x (Some y) v Input (if Nat.eqb k 0 then fd else db)
                               (match ms with [] => td | _ => db end) db in
              match r with
              | Raise e => (g, Raise e)
              | Ok v => oseq_jmjTp_in o hooks ms g (S k) v fd td db
              end
          end
      end.
    (** sequential.py:183-211; the blocks of the matrix are those of Module.v (sequential.py:167-179) *)
    Fixpoint oseq_jmjTp_w (o : nat) (hooks : bool) (ms : list node) (g : heap) (k : nat)
      (blocks : list (value K)) (acc : value K) (fd td db : bool) : heap * res (value K) :=
      match ms with
      | [] => (g, Ok acc)
      | m :: ms =>
          let td' := match ms with [] => td | _ => db end in
          let '(g, r) := match acc with
                         | VNone => (g, Ok VNone)
                         | a => match fmap2 hooks (h_fm g o) k with
                                | Raise e => (g, Raise e)
                                | Ok (x, y) => f m g x (Some y) a Input db td' db
                                end
                         end in
          match r with
          | Raise e => (g, Raise e)
          | Ok acc =>
              if Nat.eqb (n_params (erase m)) 0
              then oseq_jmjTp_w o hooks ms g (S k) blocks acc fd td db
              else
                match (p <- fmap2 hooks (h_fm g o) k ;;
                       match blocks with [] => Raise IndexError | b :: bs => Ok (p, b, bs) end) with
                | Raise e => (g, Raise e)
                | Ok (x, y, b, bs) =>
                    let '(g, r) := f m g x (Some y) b Weight fd td' db in
                    match (new <- r ;; new <- to_opt new ;; acc <- to_opt acc ;; accumulate acc new) with
                    | Raise e => (g, Raise e)
                    | Ok acc => oseq_jmjTp_w o hooks ms g (S k) bs (of_opt acc) fd td db
                    end
                end
          end
      end.
  End JmjTp.

  (** jmjTp (sequential.py:124-211, skipconnection.py:87-134, maxpool2d.py:110-143) *)
  Fixpoint ojmjTp (m : node) (g : heap) (x : T) (val : option T) (mat : value K) (w : wrt) (fd td db : bool)
    {struct m} : heap * res (value K) :=
    match m with
    | OLeaf _ l => (g, mt <- to_opt mat ;; r <- leaf_jmjTp l x val mt w fd td db ;; Ok (of_opt r))
    | OPool o cfg =>
        let '(g, r) := oensure m g x val in
        (g, _ <- r ;; match w with Input => Raise NotImplementedError | _ => Ok VNone end)
    | OSeq o hooks ms =>
        if db_ok fd td db then
          let '(g, r) := oensure m g x val in
          match r with
          | Raise e => (g, Raise e)
          | Ok _ =>
              match w with
              | Input =>
                  let '(mt, fd) := match mat with VNone => (VT (ones (shape x)), true) | v => (v, fd) end in
                  oseq_jmjTp_in ojmjTp o hooks ms g 0 mt fd td db
              | Weight =>
                  match ('(mt, fd) <- match mat with
                                      | VNone => b <- size 0 x ;; Ok (VT (ones [b; n_params (erase m)]), true)
                                      | v => Ok (v, fd)
                                      end ;;
                         bs <- match mt with
                               | VL l => Ok l
                               | VT t => seq_blocks (map erase ms) t 0 fd
                               | VNone => Raise TypeError
                               end ;;
                         Ok (bs, fd)) with
                  | Raise e => (g, Raise e)
                  | Ok (bs, fd) => oseq_jmjTp_w ojmjTp o hooks ms g 0 bs VNone fd td db
                  end
              | Other => (g, Ok VNone)
              end
          end
        else (g, Raise AssertionError)
    | OSkip _ F =>
        if db_ok fd td db then
          let '(g, r) := oensure m g x val in
          match (y <- r ;; b <- size 0 x ;; l1 <- numel0 x ;; l2 <- numel0 y ;;
                 t <- slice_from n0 1 l1 y ;; Ok (b, l1, l2, t)) with
          | Raise e => (g, Raise e)
          | Ok (b, l1, l2, t) =>
              let '(g, r) := ojmjTp F g x (Some t) mat w fd td db in
              match r with
              | Raise e => (g, Raise e)
              | Ok j =>
                  match w with
                  | Input =>
                      if td then
                        (g, mt <- to_tensor mat ;;
                            a <- (if fd then Ok mt else einsum "bii->bi" [mt]) ;;
                            j <- to_tensor j ;; r <- cat n0 1 [a; j] ;; Ok (VT r))
                      else
                        match (mt <- to_tensor mat ;; if fd then diag_embed mt else Ok mt) with
                        | Raise e => (g, Raise e)
                        | Ok mt =>
                            let '(g, r) := ojmp F g x (Some t) (Some mt) w in
                            match (jm <- r ;; need jm) with
                            | Raise e => (g, Raise e)
                            | Ok jm =>
                                if fd then
                                  (g, jmT <- transpose12 n0 jm ;; j <- to_tensor j ;;
                                      a <- cat n0 2 [mt; jmT] ;; c <- cat n0 2 [jm; j] ;;
                                      r <- cat n0 1 [a; c] ;; Ok (VT r))
                                else
                                  match transpose12 n0 mt with
                                  | Raise e => (g, Raise e)
                                  | Ok mtT =>
                                      let '(g, r) := ojmp F g x (Some t) (Some mtT) w in
                                      (g, mj <- r ;; mj <- need mj ;; mjT <- transpose12 n0 mj ;;
                                          j <- to_tensor j ;;
                                          a <- cat n0 2 [mt; mjT] ;; c <- cat n0 2 [jm; j] ;;
                                          r <- cat n0 1 [a; c] ;; Ok (VT r))
                                  end
                            end
                        end
                  | Weight =>
                      (g, j <- to_tensor j ;;
                          if td then z <- reshape [b; l1] (zeros (shape x)) ;;
                                     r <- cat n0 1 [z; j] ;; Ok (VT r)
                          else c <- cat n0 2 [zeros [b; l2 - l1; l1]; j] ;;
                               r <- cat n0 1 [zeros [b; l1; l2]; c] ;; Ok (VT r))
                  | Other => (g, Ok VNone)
                  end
              end
          end
        else (g, Raise AssertionError)
    end.

  (** *** Parameters *)
  (** copy.deepcopy(model): new objects of the same classes with the same settings; [f] gives the identity
      of the copy of each object (nodes that are the same object have the same copy).  The hooks of
      sequential.py:27 are lambdas: deepcopy keeps them as they are, and they go on writing to the
      feature_maps of the original. *)
  Fixpoint rename (f : nat -> nat) (m : node) : node :=
    match m with
    | OLeaf o l => OLeaf (f o) l
    | OPool o cfg => OPool (f o) cfg
    | OSeq o h ms => OSeq (f o) h (map (rename f) ms)
    | OSkip o F => OSkip (f o) (rename f F)
    end.

  (** self.parameters() walks the tree but yields each tensor of each object once
      (torch.nn.Module.named_parameters with remove_duplicate): the objects met so far are [seen].
      Simplification: distinct objects are taken to hold distinct tensors. *)
  Fixpoint oparams (m : node) (seen : list nat) : list nat * list T :=
    match m with
    | OLeaf o l => if existsb (Nat.eqb o) seen then (seen, []) else (o :: seen, leaf_params l)
    | OPool _ _ => (seen, [])
    | OSeq _ _ ms =>
        (fix go (ms : list node) (seen : list nat) : list nat * list T :=
           match ms with
           | [] => (seen, [])
           | m :: ms => let '(seen, a) := oparams m seen in
                        let '(seen, b) := go ms seen in (seen, (a ++ b)%list)
           end) ms seen
    | OSkip _ F => oparams F seen
    end.
  (** torch.nn.utils.parameters_to_vector(self.parameters()) (abstract_jacobian.py:235-239) *)
  Definition oget_weight (m : node) : res T :=
    match snd (oparams m []) with
    | [] => Raise RuntimeError
    | ps => let d := flat_map (@data K) ps in Ok (mkT [List.length d] d)
    end.
End Objects.
Arguments node : clear implicits.
Arguments heap : clear implicits.
