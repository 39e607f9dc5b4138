(** Model of the module tree with its hidden state: nnj/sequential.py, nnj/skipconnection.py, the state
    of nnj/maxpool2d.py, and the dispatch to the leaf layers.

    The module (layers, parameters, configuration) and the hidden mutable state are separate: a method
    takes the module, its state and the arguments, and returns the state after the call (kept when an
    exception is raised, as in Python) and a result or an exception.  Modules form a tree; sharing one
    layer object between two places is modelled in Objects.v. *)
From Coq Require Import String Ascii List Arith ZArith Lia Bool.
From Verif Require Import Scalar Tensor Conv Abstract Simple LinearLayer ConvLayer PoolLayer.
Import ListNotations.
Local Open Scope nat_scope.
Local Open Scope list_scope.
Local Open Scope string_scope.

Section Module.
  Context {K} `{Num K}.
  Notation T := (tensor K).

  (** A user-defined layer in the README's style: a subclass of AbstractJacobian that provides
      forward and jacobian only, without parameters and state. *)
  Record custom := {
    cu_forward : T -> res T;
    cu_jacobian : T -> option T -> wrt -> res (option T)
  }.

  (** Layers without hidden state. *)
  Inductive leaf :=
  | Linear (W : T) (bias : option T)
  | Conv2d (cfg : conv_cfg) (W : T) (bias : option T)
  | Act (a : act K)
  | Flatten
  | Reshape (dims : list Z)
  | L2Norm (eps : K)
  | Upsample (sn sd : nat)
  | Custom (c : custom).

  (** Seq: self._modules and self.add_hooks.  Skip: self._F, which skipconnection.py:14 builds as a
      Sequential. *)
  Inductive module :=
  | Leaf (l : leaf)
  | MaxPool (cfg : pool_cfg)
  | Seq (hooks : bool) (ms : list module)
  | Skip (F : module).

  (** Hidden state of one module: self.feature_maps (Sequential), self.idx (MaxPool2d), and the states
      of the children. *)
  Inductive st := St (fm : list T) (idx : option (tensor nat)) (kids : list st).
  (** state after construction: sequential.py:23, maxpool2d.py:14 *)
  Definition st0 : st := St [] None [].
  Definition st_fm (s : st) : list T := match s with St fm _ _ => fm end.
  Definition st_idx (s : st) : option (tensor nat) := match s with St _ i _ => i end.
  Definition st_kids (s : st) : list st := match s with St _ _ k => k end.
  (** state of a SkipConnection's self._F *)
  Definition st_kid (s : st) : st := hd st0 (st_kids s).
  Definition set_kid (s k : st) : st := St (st_fm s) (st_idx s) [k].

  (** What jmjTp/jTmjp accept and return: None, a tensor, or a (nested) list of them. *)
  Inductive value := VNone | VT (t : T) | VL (l : list value).
  Definition of_opt (o : option T) : value := match o with None => VNone | Some t => VT t end.
  (** a value used where torch needs a tensor or None *)
  Definition to_opt (v : value) : res (option T) :=
    match v with VNone => Ok None | VT t => Ok (Some t) | VL _ => Raise TypeError end.
  Definition to_tensor (v : value) : res T :=
    match v with VT t => Ok t | _ => Raise TypeError end.

  (** *** Dispatch to the leaf layers (the classes of nnj/__init__.py without hidden state) *)
  Definition leaf_forward (l : leaf) (x : T) : res T :=
    match l with
    | Linear W b => lin_forward W b x
    | Conv2d c W b => conv_forward c W b x
    | Act a => act_forward a x
    | Flatten => flatten_forward x
    | Reshape d => reshape_forward d x
    | L2Norm e => l2_forward e x
    | Upsample sn sd => up_forward sn sd x
    | Custom c => cu_forward c x
    end.
  Definition leaf_jacobian (l : leaf) (x : T) (val : option T) (w : wrt) : res (option T) :=
    match l with
    | Linear W b => lin_jacobian W b x val w
    | Conv2d c W b => conv_jacobian c W b x val w
    | Act a => act_jacobian a x val w false
    | Flatten | Reshape _ => id_jacobian x val w false
    | L2Norm e => l2_jacobian e x val w
    | Upsample sn sd => up_jacobian sn sd x val w
    | Custom c => cu_jacobian c x val w
    end.
  Definition leaf_jvp (l : leaf) (x : T) (val : option T) (v : T) (w : wrt) : res (option T) :=
    match l with
    | Linear W b => lin_jvp W b x val v w
    | Conv2d c W b => conv_jvp x val v w
    | Act a => ad_jvp (act_jacobian a) x val v w
    | Flatten | Reshape _ => id_jvp x val v w
    | L2Norm e => aj_jvp (l2_jacobian e) x val v w
    | Upsample sn sd => up_jvp x val v w
    | Custom c => aj_jvp (cu_jacobian c) x val v w
    end.
  Definition leaf_jmp (l : leaf) (x : T) (val : option T) (m : option T) (w : wrt) : res (option T) :=
    match l with
    | Linear W b => lin_jmp W b x val m w
    | Conv2d c W b => conv_jmp c W b x val m w
    | Act a => ad_jmp (act_jacobian a) x val m w
    | Flatten | Reshape _ => id_jmp x val m w
    | L2Norm e => aj_jmp (l2_jacobian e) x val m w
    | Upsample sn sd => up_jmp sn sd x val m w
    | Custom c => aj_jmp (cu_jacobian c) x val m w
    end.
  Definition leaf_vjp (l : leaf) (x : T) (val : option T) (v : T) (w : wrt) : res (option T) :=
    match l with
    | Linear W b => lin_vjp W b x val v w
    | Conv2d c W b => conv_vjp c W b x val v w
    | Act a => ad_vjp (act_jacobian a) x val v w
    | Flatten | Reshape _ => id_jvp x val v w
    | L2Norm e => aj_vjp (l2_jacobian e) x val v w
    | Upsample sn sd => up_vjp sn sd x val v w
    | Custom c => aj_vjp (cu_jacobian c) x val v w
    end.
  Definition leaf_mjp (l : leaf) (x : T) (val : option T) (m : option T) (w : wrt) : res (option T) :=
    match l with
    | Linear W b => lin_mjp W b x val m w
    | Conv2d c W b => conv_mjp c W b x val m w
    | Act a => ad_mjp (act_jacobian a) x val m w
    | Flatten | Reshape _ => id_jmp x val m w
    | L2Norm e => aj_mjp (l2_jacobian e) x val m w
    | Upsample sn sd => up_mjp sn sd x val m w
    | Custom c => aj_mjp (cu_jacobian c) x val m w
    end.
  Definition leaf_jmjTp (l : leaf) (x : T) (val : option T) (m : option T) (w : wrt) (fd td db : bool)
    : res (option T) :=
    match l with
    | Linear W b => lin_jmjTp W b x val m w fd td db
    | Conv2d c W b => conv_jmjTp c W b x val m w fd td db
    | Act a => ad_jmjTp (act_jacobian a) (act_forward a) x val m w fd td db
    | Flatten | Reshape _ => id_jmjTp x val m w fd td db
    | L2Norm e => aj_jmjTp (l2_jacobian e) x val m w fd td db
    | Upsample sn sd => up_jmjTp sn sd x val m w fd td db
    | Custom c => aj_jmjTp (cu_jacobian c) x val m w fd td db
    end.
  Definition leaf_jTmjp (l : leaf) (x : T) (val : option T) (m : option T) (w : wrt) (fd td db : bool)
    : res (option T) :=
    match l with
    | Linear W b => lin_jTmjp W b x val m w fd td db
    | Conv2d c W b => conv_jTmjp c W b x val m w fd td db
    | Act a => ad_jTmjp (act_jacobian a) (act_forward a) x val m w fd td db
    | Flatten => id_jTmjp flatten_forward x val m w fd td db
    | Reshape d => id_jTmjp (reshape_forward d) x val m w fd td db
    | L2Norm e => aj_jTmjp (l2_jacobian e) x val m w fd td db
    | Upsample sn sd => up_jTmjp sn sd x val m w fd td db
    | Custom c => aj_jTmjp (cu_jacobian c) x val m w fd td db
    end.

  (** self._n_params (linear.py:12, conv2d.py:36, sequential.py:15-19, skipconnection.py:15, and 0 in the
      constructors of the other layers) *)
  Definition leaf_n_params (l : leaf) : nat :=
    match l with
    | Linear W b => lin_n_params W b
    | Conv2d c W b => conv_n_params W b
    | _ => 0
    end.
  Fixpoint n_params (m : module) : nat :=
    match m with
    | Leaf l => leaf_n_params l
    | MaxPool _ => 0
    | Seq _ ms => fold_right (fun m n => n_params m + n) 0 ms
    | Skip F => n_params F
    end.

  (** x[0].numel() of a tensor with a batch dimension; x[0] raises on an empty batch or rank 0 *)
  Definition numel0 (t : T) : res nat :=
    match shape t with
    | [] => Raise IndexError
    | b :: s => if Nat.eqb b 0 then Raise IndexError else Ok (numel s)
    end.

  (** the state of the first child and the states of the others *)
  Definition kid_split (ks : list st) : st * list st :=
    match ks with [] => (st0, []) | k :: ks => (k, ks) end.

  (** *** forward *)
  (** the forward hook (sequential.py:28): self.feature_maps.append(o.detach()) *)
  Definition hook_push (hooks : bool) (fm : list T) (y : T) : list T := if hooks then fm ++ [y] else fm.

  Section Fwd.
    Variable fw : module -> st -> T -> st * res T.
    (** sequential.py:33-36; module(x) also runs the hook *)
    Fixpoint seq_forward (hooks : bool) (ms : list module) (ks : list st) (x : T) (fm : list T)
      : list st * list T * res T :=
      match ms with
      | [] => ([], fm, Ok x)
      | m :: ms =>
          let '(k, ks) := kid_split ks in
          let '(k, r) := fw m k x in
          match r with
          | Raise e => (k :: ks, fm, Raise e)
          | Ok y => let '(ks, fm, r) := seq_forward hooks ms ks y (hook_push hooks fm y) in (k :: ks, fm, r)
          end
      end.
  End Fwd.

  (** forward (sequential.py:30-36, skipconnection.py:17-18, maxpool2d.py:16-27) *)
  Fixpoint forward (m : module) (s : st) (x : T) {struct m} : st * res T :=
    match m with
    | Leaf l => (s, leaf_forward l x)
    | MaxPool cfg =>
        match max_pool2d cfg x with
        | Ok (val, idx) => (St (st_fm s) (Some idx) (st_kids s), Ok val)
        | Raise e => (s, Raise e)
        end
    | Seq hooks ms =>
        let '(ks, fm, r) := seq_forward forward hooks ms (st_kids s) x (if hooks then [x] else st_fm s) in
        (St fm (st_idx s) ks, r)
    | Skip F =>
        let '(k, r) := forward F (st_kid s) x in
        (set_kid s k, y <- r ;; cat n0 1 [x; y])
    end.

  (** if val is None: val = self.forward(x) *)
  Definition ensure (m : module) (s : st) (x : T) (val : option T) : st * res T :=
    match val with Some v => (s, Ok v) | None => forward m s x end.

  (** self.feature_maps[k]: AttributeError without hooks, IndexError when too short *)
  Definition fmap_at (hooks : bool) (fm : list T) (k : nat) : res T :=
    if hooks then match nth_error fm k with Some t => Ok t | None => Raise IndexError end
    else Raise AttributeError.
  (** the pair (self.feature_maps[k], self.feature_maps[k + 1]) *)
  Definition fmap2 (hooks : bool) (fm : list T) (k : nat) : res (T * T) :=
    x <- fmap_at hooks fm k ;; y <- fmap_at hooks fm (S k) ;; Ok (x, y).

  (** assert wrt in ["input", "weight"] *)
  Definition wrt_ok (w : wrt) : bool := match w with Other => false | _ => true end.
  (** assert (not diag_backprop) or (diag_backprop and from_diag and to_diag) *)
  Definition db_ok (fd td db : bool) : bool := negb db || (db && fd && td).

  (** None if val is None else val[:, l:] *)
  Definition val_tail (l : nat) (val : option T) : res (option T) :=
    match val with None => Ok None | Some v => some (slice_from n0 1 l v) end.

  (** *** vjp *)
  Section Vjp.
    Variable f : module -> st -> T -> option T -> T -> wrt -> st * res (option T).
    (** sequential.py:236-246 with wrt="input": from the last module to the first *)
    Fixpoint seq_vjp_in (hooks : bool) (fm : list T) (ms : list module) (ks : list st) (k : nat) (v : T)
      : list st * res T :=
      match ms with
      | [] => ([], Ok v)
      | m :: ms =>
          let '(s, ks) := kid_split ks in
          let '(ks, r) := seq_vjp_in hooks fm ms ks (S k) v in
          match (v <- r ;; p <- fmap2 hooks fm k ;; Ok (v, p)) with
          | Raise e => (s :: ks, Raise e)
          | Ok (v, (x, y)) => let '(s, r) := f m s x (Some y) v Input in
                              (s :: ks, r <- r ;; need r)
          end
      end.
    (** sequential.py:236-246 with wrt="weight": the collected vs and the propagated vector *)
    Fixpoint seq_vjp_w (hooks : bool) (fm : list T) (ms : list module) (ks : list st) (k : nat) (v : T)
      : list st * res (list T * T) :=
      match ms with
      | [] => ([], Ok ([], v))
      | m :: ms =>
          let '(s, ks) := kid_split ks in
          let '(ks, r) := seq_vjp_w hooks fm ms ks (S k) v in
          match (a <- r ;; p <- fmap2 hooks fm k ;; Ok (a, p)) with
          | Raise e => (s :: ks, Raise e)
          | Ok (vs, v, (x, y)) =>
              let '(s, r) := f m s x (Some y) v Weight in
              match r with
              | Raise e => (s :: ks, Raise e)
              | Ok vk =>
                  let vs := match vk with Some t => t :: vs | None => vs end in
                  if Nat.eqb k 0 then (s :: ks, Ok (vs, v))
                  else let '(s, r) := f m s x (Some y) v Input in
                       (s :: ks, r <- r ;; v <- need r ;; Ok (vs, v))
              end
          end
      end.
  End Vjp.

  (** vjp (sequential.py:218-250, skipconnection.py:141-156, maxpool2d.py:150-182).
      Simplification: an intermediate vector that is None (only possible with a custom layer whose
      jacobian returns None for the input) raises TypeError at once.  The branches
      isinstance(v_k, list) of sequential.py:241 are dead: no vjp returns a list. *)
  Fixpoint vjp (m : module) (s : st) (x : T) (val : option T) (v : T) (w : wrt) {struct m}
    : st * res (option T) :=
    match m with
    | Leaf l => (s, leaf_vjp l x val v w)
    | MaxPool cfg =>
        match w with
        | Input => let '(s, r) := ensure m s x val in (s, val <- r ;; some (pool_vjp (st_idx s) x val v))
        | _ => (s, Ok None)
        end
    | Seq hooks ms =>
        if wrt_ok w then
          let '(s, r) := ensure m s x val in
          match r with
          | Raise e => (s, Raise e)
          | Ok _ =>
              match w with
              | Weight =>
                  let '(ks, r) := seq_vjp_w vjp hooks (st_fm s) ms (st_kids s) 0 v in
                  (St (st_fm s) (st_idx s) ks,
                   '(vs, _) <- r ;; match vs with [] => Ok None | _ => some (cat n0 1 vs) end)
              | _ =>
                  let '(ks, r) := seq_vjp_in vjp hooks (st_fm s) ms (st_kids s) 0 v in
                  (St (st_fm s) (st_idx s) ks, some r)
              end
          end
        else (s, Raise AssertionError)
    | Skip F =>
        match (l <- numel0 x ;; t <- val_tail l val ;; vt <- slice_from n0 1 l v ;; Ok (l, t, vt)) with
        | Raise e => (s, Raise e)
        | Ok (l, t, vt) =>
            let '(k, r) := vjp F (st_kid s) x t vt w in
            (set_kid s k,
             r <- r ;;
             match w with
             | Input => a <- slice n0 1 0 l v ;; r <- need r ;; some (tadd a r)
             | Weight => Ok r
             | Other => Ok None
             end)
        end
    end.

  (** *** mjp *)
  Section Mjp.
    Variable f : module -> st -> T -> option T -> option T -> wrt -> st * res (option T).
    (** sequential.py:273-283 with wrt="input" *)
    Fixpoint seq_mjp_in (hooks : bool) (fm : list T) (ms : list module) (ks : list st) (k : nat)
      (v : option T) : list st * res (option T) :=
      match ms with
      | [] => ([], Ok v)
      | m :: ms =>
          let '(s, ks) := kid_split ks in
          let '(ks, r) := seq_mjp_in hooks fm ms ks (S k) v in
          match (v <- r ;; p <- fmap2 hooks fm k ;; Ok (v, p)) with
          | Raise e => (s :: ks, Raise e)
          | Ok (v, (x, y)) => let '(s, r) := f m s x (Some y) v Input in (s :: ks, r)
          end
      end.
    (** sequential.py:273-283 with wrt="weight" *)
    Fixpoint seq_mjp_w (hooks : bool) (fm : list T) (ms : list module) (ks : list st) (k : nat)
      (v : option T) : list st * res (list T * option T) :=
      match ms with
      | [] => ([], Ok ([], v))
      | m :: ms =>
          let '(s, ks) := kid_split ks in
          let '(ks, r) := seq_mjp_w hooks fm ms ks (S k) v in
          match (a <- r ;; p <- fmap2 hooks fm k ;; Ok (a, p)) with
          | Raise e => (s :: ks, Raise e)
          | Ok (vs, v, (x, y)) =>
              let '(s, r) := f m s x (Some y) v Weight in
              match r with
              | Raise e => (s :: ks, Raise e)
              | Ok vk =>
                  let vs := match vk with Some t => t :: vs | None => vs end in
                  if Nat.eqb k 0 then (s :: ks, Ok (vs, v))
                  else let '(s, r) := f m s x (Some y) v Input in
                       (s :: ks, v <- r ;; Ok (vs, v))
              end
          end
      end.
  End Mjp.

  (** maxpool2d.py:30-54 *)
  Definition maxpool_jacobian (cfg : pool_cfg) (s : st) (x : T) (val : option T) (w : wrt)
    : st * res (option T) :=
    match w with
    | Input => let '(s, r) := ensure (MaxPool cfg) s x val in
               (s, val <- r ;; some (pool_jacobian (st_idx s) x val))
    | _ => (s, Ok None)
    end.

  (** skipconnection.py:21-38, given self._F.jacobian.  [val] is handed to self._F unsliced. *)
  Definition skip_jacobian (F : module) (jacF : st -> option T -> st * res (option T))
    (s : st) (x : T) (val : option T) (w : wrt) : st * res (option T) :=
    let '(k, r) := jacF (st_kid s) val in
    let s := set_kid s k in
    match (jac <- r ;; b <- size 0 x ;; l <- numel0 x ;; Ok (jac, b, l)) with
    | Raise e => (s, Raise e)
    | Ok (jac, b, l) =>
        let '(s, r) := ensure (Skip F) s x val in
        (s, _ <- r ;;
            match w with
            | Input => o <- reshape [b; l] (ones (shape x)) ;;
                       id <- diag_embed o ;;
                       jac <- need jac ;; some (cat n0 1 [id; jac])
            | Weight => jac <- need jac ;; some (cat n0 1 [zeros [b; l; n_params F]; jac])
            | Other => Ok None
            end)
    end.

  (** mjp (sequential.py:253-287, skipconnection.py:159-176, maxpool2d.py:185-221).
      A SkipConnection's self._F is a Sequential, so self._F.jacobian(x, val, wrt) is
      self._F.mjp(x, val, None, wrt) (sequential.py:39-41). *)
  Fixpoint mjp (m : module) (s : st) (x : T) (val : option T) (mat : option T) (w : wrt) {struct m}
    : st * res (option T) :=
    match m with
    | Leaf l => (s, leaf_mjp l x val mat w)
    | MaxPool cfg =>
        match mat with
        | None => maxpool_jacobian cfg s x val w
        | Some mt =>
            match w with
            | Input => let '(s, r) := ensure m s x val in (s, val <- r ;; some (pool_mjp (st_idx s) x val mt))
            | _ => (s, Ok None)
            end
        end
    | Seq hooks ms =>
        if wrt_ok w then
          let '(s, r) := ensure m s x val in
          match (y <- r ;;
                 match mat with
                 | Some mt => Ok mt
                 | None => match shape y with
                           | [] => Raise IndexError
                           | b :: sh => Ok (eye_repeat b (numel sh))
                           end
                 end) with
          | Raise e => (s, Raise e)
          | Ok mt =>
              match w with
              | Weight =>
                  let '(ks, r) := seq_mjp_w mjp hooks (st_fm s) ms (st_kids s) 0 (Some mt) in
                  (St (st_fm s) (st_idx s) ks,
                   '(vs, _) <- r ;; match vs with [] => Ok None | _ => some (cat n0 2 vs) end)
              | _ =>
                  let '(ks, r) := seq_mjp_in mjp hooks (st_fm s) ms (st_kids s) 0 (Some mt) in
                  (St (st_fm s) (st_idx s) ks, r)
              end
          end
        else (s, Raise AssertionError)
    | Skip F =>
        match mat with
        | None => skip_jacobian F (fun k val => mjp F k x val None w) s x val w
        | Some mt =>
            match (l <- numel0 x ;; t <- val_tail l val ;; vt <- slice_from n0 2 l mt ;; Ok (l, t, vt)) with
            | Raise e => (s, Raise e)
            | Ok (l, t, vt) =>
                let '(k, r) := mjp F (st_kid s) x t (Some vt) w in
                (set_kid s k,
                 r <- r ;;
                 match w with
                 | Input => a <- slice n0 2 0 l mt ;; r <- need r ;; some (tadd a r)
                 | Weight => Ok r
                 | Other => Ok None
                 end)
            end
        end
    end.

  (** jacobian (sequential.py:39-41, skipconnection.py:21-38, maxpool2d.py:30-54) *)
  Definition jacobian (m : module) (s : st) (x : T) (val : option T) (w : wrt) : st * res (option T) :=
    match m with
    | Leaf l => (s, leaf_jacobian l x val w)
    | MaxPool cfg => maxpool_jacobian cfg s x val w
    | Seq _ _ => mjp m s x val None w
    | Skip F => skip_jacobian F (fun k val => mjp F k x val None w) s x val w
    end.

  (** *** jvp *)
  (** a product of a parametric layer is added in place to the running one
      (sequential.py:74-78, 113-117, 206-210) *)
  Definition accumulate (acc new : option T) : res (option T) :=
    match new with
    | None => Ok acc
    | Some n => match acc with None => Ok (Some n) | Some a => some (tadd_ a n) end
    end.

  Section Jvp.
    Variable f : module -> st -> T -> option T -> T -> wrt -> st * res (option T).
    (** sequential.py:61-65 *)
    Fixpoint seq_jvp_in (hooks : bool) (ms : list module) (ks : list st) (x : T) (fm : list T) (v : T)
      : list st * list T * res T :=
      match ms with
      | [] => ([], fm, Ok v)
      | m :: ms =>
          let '(k, ks) := kid_split ks in
          let '(k, r) := forward m k x in
          match r with
          | Raise e => (k :: ks, fm, Raise e)
          | Ok y =>
              let fm := hook_push hooks fm y in
              let '(k, r) := f m k x (Some y) v Input in
              match (r <- r ;; need r) with
              | Raise e => (k :: ks, fm, Raise e)
              | Ok v => let '(ks, fm, r) := seq_jvp_in hooks ms ks y fm v in (k :: ks, fm, r)
              end
          end
      end.
    (** sequential.py:67-82 *)
    Fixpoint seq_jvp_w (hooks : bool) (ms : list module) (ks : list st) (x : T) (fm : list T) (v : T)
      (p : nat) (acc : option T) : list st * list T * res (option T) :=
      match ms with
      | [] => ([], fm, Ok acc)
      | m :: ms =>
          let '(k, ks) := kid_split ks in
          let '(k, r) := forward m k x in
          match r with
          | Raise e => (k :: ks, fm, Raise e)
          | Ok y =>
              let fm := hook_push hooks fm y in
              let '(k, r) := match acc with
                             | None => (k, Ok None)
                             | Some a => f m k x (Some y) a Input
                             end in
              match (acc <- r ;; vp <- slice n0 1 p (p + n_params m) v ;; Ok (acc, vp)) with
              | Raise e => (k :: ks, fm, Raise e)
              | Ok (acc, vp) =>
                  let '(k, r) := f m k x (Some y) vp Weight in
                  match (new <- r ;; accumulate acc new) with
                  | Raise e => (k :: ks, fm, Raise e)
                  | Ok acc =>
                      let '(ks, fm, r) := seq_jvp_w hooks ms ks y fm v (p + n_params m) acc in
                      (k :: ks, fm, r)
                  end
              end
          end
      end.
  End Jvp.

  (** jvp (sequential.py:48-82, skipconnection.py:45-62, maxpool2d.py:61-75).  The final
      "assert p == self._n_params" of sequential.py:81 always holds. *)
  Fixpoint jvp (m : module) (s : st) (x : T) (val : option T) (v : T) (w : wrt) {struct m}
    : st * res (option T) :=
    match m with
    | Leaf l => (s, leaf_jvp l x val v w)
    | MaxPool cfg => (s, match w with Input => Raise NotImplementedError | _ => Ok None end)
    | Seq hooks ms =>
        match w with
        | Input => let '(ks, fm, r) := seq_jvp_in jvp hooks ms (st_kids s) x (st_fm s) v in
                   (St fm (st_idx s) ks, some r)
        | Weight => let '(ks, fm, r) := seq_jvp_w jvp hooks ms (st_kids s) x (st_fm s) v 0 None in
                    (St fm (st_idx s) ks, r)
        | Other => (s, Raise AssertionError)
        end
    | Skip F =>
        match (b <- size 0 x ;; l <- numel0 x ;; t <- val_tail l val ;; Ok (b, l, t)) with
        | Raise e => (s, Raise e)
        | Ok (b, l, t) =>
            let '(k, r) := jvp F (st_kid s) x t v w in
            (set_kid s k,
             r <- r ;;
             match w with
             | Input => r <- need r ;; some (cat n0 1 [v; r])
             | Weight => z <- reshape [b; l] (zeros (shape x)) ;; r <- need r ;; some (cat n0 1 [z; r])
             | Other => Ok None
             end)
        end
    end.

  (** *** jmp *)
  Section Jmp.
    Variable f : module -> st -> T -> option T -> option T -> wrt -> st * res (option T).
    (** sequential.py:100-104 *)
    Fixpoint seq_jmp_in (hooks : bool) (ms : list module) (ks : list st) (x : T) (fm : list T)
      (v : option T) : list st * list T * res (option T) :=
      match ms with
      | [] => ([], fm, Ok v)
      | m :: ms =>
          let '(k, ks) := kid_split ks in
          let '(k, r) := forward m k x in
          match r with
          | Raise e => (k :: ks, fm, Raise e)
          | Ok y =>
              let fm := hook_push hooks fm y in
              let '(k, r) := f m k x (Some y) v Input in
              match r with
              | Raise e => (k :: ks, fm, Raise e)
              | Ok v => let '(ks, fm, r) := seq_jmp_in hooks ms ks y fm v in (k :: ks, fm, r)
              end
          end
      end.
    (** sequential.py:106-121 *)
    Fixpoint seq_jmp_w (hooks : bool) (ms : list module) (ks : list st) (x : T) (fm : list T) (v : T)
      (p : nat) (acc : option T) : list st * list T * res (option T) :=
      match ms with
      | [] => ([], fm, Ok acc)
      | m :: ms =>
          let '(k, ks) := kid_split ks in
          let '(k, r) := forward m k x in
          match r with
          | Raise e => (k :: ks, fm, Raise e)
          | Ok y =>
              let fm := hook_push hooks fm y in
              let '(k, r) := match acc with
                             | None => (k, Ok None)
                             | Some a => f m k x (Some y) (Some a) Input
                             end in
              match (acc <- r ;; vp <- slice n0 1 p (p + n_params m) v ;;
                     check (Nat.eqb (rank v) 3) IndexError (Ok (acc, vp))) with
              | Raise e => (k :: ks, fm, Raise e)
              | Ok (acc, vp) =>
                  let '(k, r) := f m k x (Some y) (Some vp) Weight in
                  match (new <- r ;; accumulate acc new) with
                  | Raise e => (k :: ks, fm, Raise e)
                  | Ok acc =>
                      let '(ks, fm, r) := seq_jmp_w hooks ms ks y fm v (p + n_params m) acc in
                      (k :: ks, fm, r)
                  end
              end
          end
      end.
  End Jmp.

  (** jmp (sequential.py:85-121, skipconnection.py:65-84, maxpool2d.py:78-107) *)
  Fixpoint jmp (m : module) (s : st) (x : T) (val : option T) (mat : option T) (w : wrt) {struct m}
    : st * res (option T) :=
    match m with
    | Leaf l => (s, leaf_jmp l x val mat w)
    | MaxPool cfg =>
        match mat with
        | None => maxpool_jacobian cfg s x val w
        | Some mt =>
            match w with
            | Input => let '(s, r) := ensure m s x val in (s, val <- r ;; some (pool_jmp (st_idx s) x val mt))
            | _ => (s, Ok None)
            end
        end
    | Seq hooks ms =>
        if wrt_ok w then
          match mat with
          | None => jacobian m s x val w
          | Some mt =>
              match w with
              | Weight => let '(ks, fm, r) := seq_jmp_w jmp hooks ms (st_kids s) x (st_fm s) mt 0 None in
                          (St fm (st_idx s) ks, r)
              | _ => let '(ks, fm, r) := seq_jmp_in jmp hooks ms (st_kids s) x (st_fm s) (Some mt) in
                     (St fm (st_idx s) ks, r)
              end
          end
        else (s, Raise AssertionError)
    | Skip F =>
        match mat with
        | None => jacobian m s x val w
        | Some mt =>
            match (b <- size 0 x ;; l <- numel0 x ;; t <- val_tail l val ;; Ok (b, l, t)) with
            | Raise e => (s, Raise e)
            | Ok (b, l, t) =>
                let '(k, r) := jmp F (st_kid s) x t (Some mt) w in
                (set_kid s k,
                 r <- r ;;
                 match w with
                 | Input => r <- need r ;; some (cat n0 1 [mt; r])
                 | Weight => c <- size 2 mt ;; r <- need r ;; some (cat n0 1 [zeros [b; l; c]; r])
                 | Other => Ok None
                 end)
            end
        end
    end.

  (** *** jmjTp *)
  Section JmjTp.
    Variable f : module -> st -> T -> option T -> value -> wrt -> bool -> bool -> bool -> st * res value.
    (** sequential.py:149-161; [first] tells k == 0, and k == len - 1 is the end of the list *)
    Fixpoint seq_jmjTp_in (hooks : bool) (fm : list T) (ms : list module) (ks : list st) (k : nat)
      (v : value) (fd td db : bool) : list st * res value :=
      match ms with
      | [] => ([], Ok v)
      | m :: ms =>
          let '(s, ks) := kid_split ks in
          match fmap2 hooks fm k with
          | Raise e => (s :: ks, Raise e)
          | Ok (x, y) =>
              let '(s, r) := f m s x (Some y) v Input (if Nat.eqb k 0 then fd else db)
                               (match ms with [] => td | _ => db end) db in
              match r with
              | Raise e => (s :: ks, Raise e)
              | Ok v => let '(ks, r) := seq_jmjTp_in hooks fm ms ks (S k) v fd td db in (s :: ks, r)
              end
          end
      end.
    (** sequential.py:167-179: one block of the matrix per parametric layer *)
    Fixpoint seq_blocks (ms : list module) (mt : T) (p : nat) (fd : bool) : res (list value) :=
      match ms with
      | [] => Ok []
      | m :: ms =>
          if Nat.eqb (n_params m) 0 then seq_blocks ms mt p fd
          else b <- slice n0 1 p (p + n_params m) mt ;;
               b <- (if fd then Ok b else slice n0 2 p (p + n_params m) b) ;;
               bs <- seq_blocks ms mt (p + n_params m) fd ;; Ok (VT b :: bs)
      end.
    (** sequential.py:183-211 *)
    Fixpoint seq_jmjTp_w (hooks : bool) (fm : list T) (ms : list module) (ks : list st) (k : nat)
      (blocks : list value) (acc : value) (fd td db : bool) : list st * res value :=
      match ms with
      | [] => ([], Ok acc)
      | m :: ms =>
          let '(s, ks) := kid_split ks in
          let td' := match ms with [] => td | _ => db end in
          let '(s, r) := match acc with
                         | VNone => (s, Ok VNone)
                         | a => match fmap2 hooks fm k with
                                | Raise e => (s, Raise e)
                                | Ok (x, y) => f m s x (Some y) a Input db td' db
                                end
                         end in
          match r with
          | Raise e => (s :: ks, Raise e)
          | Ok acc =>
              if Nat.eqb (n_params m) 0
              then let '(ks, r) := seq_jmjTp_w hooks fm ms ks (S k) blocks acc fd td db in (s :: ks, r)
              else
                match (p <- fmap2 hooks fm k ;;
                       match blocks with [] => Raise IndexError | b :: bs => Ok (p, b, bs) end) with
                | Raise e => (s :: ks, Raise e)
                | Ok (x, y, b, bs) =>
                    let '(s, r) := f m s x (Some y) b Weight fd td' db in
                    match (new <- r ;; new <- to_opt new ;; acc <- to_opt acc ;; accumulate acc new) with
                    | Raise e => (s :: ks, Raise e)
                    | Ok acc =>
                        let '(ks, r) := seq_jmjTp_w hooks fm ms ks (S k) bs (of_opt acc) fd td db in
                        (s :: ks, r)
                    end
                end
          end
      end.
  End JmjTp.

  (** jmjTp (sequential.py:124-211, skipconnection.py:87-134, maxpool2d.py:110-143).  The assertion
      p == self._n_params of sequential.py:180 always holds. *)
  Fixpoint jmjTp (m : module) (s : st) (x : T) (val : option T) (mat : value) (w : wrt) (fd td db : bool)
    {struct m} : st * res value :=
    match m with
    | Leaf l => (s, mt <- to_opt mat ;; r <- leaf_jmjTp l x val mt w fd td db ;; Ok (of_opt r))
    | MaxPool cfg =>
        let '(s, r) := ensure m s x val in
        (s, _ <- r ;; match w with Input => Raise NotImplementedError | _ => Ok VNone end)
    | Seq hooks ms =>
        if db_ok fd td db then
          let '(s, r) := ensure m s x val in
          match r with
          | Raise e => (s, Raise e)
          | Ok _ =>
              match w with
              | Input =>
                  let '(mt, fd) := match mat with VNone => (VT (ones (shape x)), true) | v => (v, fd) end in
                  let '(ks, r) := seq_jmjTp_in jmjTp hooks (st_fm s) ms (st_kids s) 0 mt fd td db in
                  (St (st_fm s) (st_idx s) ks, r)
              | Weight =>
                  match ('(mt, fd) <- match mat with
                                      | VNone => b <- size 0 x ;; Ok (VT (ones [b; n_params m]), true)
                                      | v => Ok (v, fd)
                                      end ;;
                         bs <- match mt with
                               | VL l => Ok l
                               | VT t => seq_blocks ms t 0 fd
                               | VNone => Raise TypeError
                               end ;;
                         Ok (bs, fd)) with
                  | Raise e => (s, Raise e)
                  | Ok (bs, fd) =>
                      let '(ks, r) := seq_jmjTp_w jmjTp hooks (st_fm s) ms (st_kids s) 0 bs VNone fd td db in
                      (St (st_fm s) (st_idx s) ks, r)
                  end
              | Other => (s, Ok VNone)
              end
          end
        else (s, Raise AssertionError)
    | Skip F =>
        if db_ok fd td db then
          let '(s, r) := ensure m s x val in
          match (y <- r ;; b <- size 0 x ;; l1 <- numel0 x ;; l2 <- numel0 y ;;
                 t <- slice_from n0 1 l1 y ;; Ok (b, l1, l2, t)) with
          | Raise e => (s, Raise e)
          | Ok (b, l1, l2, t) =>
              let '(k, r) := jmjTp F (st_kid s) x (Some t) mat w fd td db in
              let s := set_kid s k in
              match r with
              | Raise e => (s, Raise e)
              | Ok j =>
                  match w with
                  | Input =>
                      if td then
                        (s, mt <- to_tensor mat ;;
                            a <- (if fd then Ok mt else einsum "bii->bi" [mt]) ;;
                            j <- to_tensor j ;; r <- cat n0 1 [a; j] ;; Ok (VT r))
                      else
                        match (mt <- to_tensor mat ;; if fd then diag_embed mt else Ok mt) with
                        | Raise e => (s, Raise e)
                        | Ok mt =>
                            let '(k, r) := jmp F (st_kid s) x (Some t) (Some mt) w in
                            let s := set_kid s k in
                            match (jm <- r ;; need jm) with
                            | Raise e => (s, Raise e)
                            | Ok jm =>
                                if fd then
                                  (s, jmT <- transpose12 n0 jm ;; j <- to_tensor j ;;
                                      a <- cat n0 2 [mt; jmT] ;; c <- cat n0 2 [jm; j] ;;
                                      r <- cat n0 1 [a; c] ;; Ok (VT r))
                                else
                                  match transpose12 n0 mt with
                                  | Raise e => (s, Raise e)
                                  | Ok mtT =>
                                      let '(k, r) := jmp F (st_kid s) x (Some t) (Some mtT) w in
                                      let s := set_kid s k in
                                      (s, mj <- r ;; mj <- need mj ;; mjT <- transpose12 n0 mj ;;
                                          j <- to_tensor j ;;
                                          a <- cat n0 2 [mt; mjT] ;; c <- cat n0 2 [jm; j] ;;
                                          r <- cat n0 1 [a; c] ;; Ok (VT r))
                                  end
                            end
                        end
                  | Weight =>
                      (s, j <- to_tensor j ;;
                          if td then z <- reshape [b; l1] (zeros (shape x)) ;;
                                     r <- cat n0 1 [z; j] ;; Ok (VT r)
                          else c <- cat n0 2 [zeros [b; l2 - l1; l1]; j] ;;
                               r <- cat n0 1 [zeros [b; l1; l2]; c] ;; Ok (VT r))
                  | Other => (s, Ok VNone)
                  end
              end
          end
        else (s, Raise AssertionError)
    end.

  (** *** jTmjp *)
  Section JTmjp.
    Variable f : module -> st -> T -> option T -> value -> wrt -> bool -> bool -> bool -> st * res value.
    (** sequential.py:312-339 with wrt != "weight": from the last module (the end of the list) to k = 0 *)
    Fixpoint seq_jTmjp_in (hooks : bool) (fm : list T) (ms : list module) (ks : list st) (k : nat)
      (v : value) (fd td db : bool) : list st * res value :=
      match ms with
      | [] => ([], Ok v)
      | m :: ms =>
          let '(s, ks) := kid_split ks in
          let '(ks, r) := seq_jTmjp_in hooks fm ms ks (S k) v fd td db in
          match (v <- r ;; p <- fmap2 hooks fm k ;; Ok (v, p)) with
          | Raise e => (s :: ks, Raise e)
          | Ok (v, (x, y)) =>
              let '(s, r) := f m s x (Some y) v Input (match ms with [] => fd | _ => db end)
                               (if Nat.eqb k 0 then td else db) db in
              (s :: ks, r)
          end
      end.
    (** sequential.py:312-339 with wrt="weight" *)
    Fixpoint seq_jTmjp_w (hooks : bool) (fm : list T) (ms : list module) (ks : list st) (k : nat)
      (v : value) (fd td db : bool) : list st * res (list value * value) :=
      match ms with
      | [] => ([], Ok ([], v))
      | m :: ms =>
          let '(s, ks) := kid_split ks in
          let '(ks, r) := seq_jTmjp_w hooks fm ms ks (S k) v fd td db in
          match (a <- r ;; p <- fmap2 hooks fm k ;; Ok (a, p)) with
          | Raise e => (s :: ks, Raise e)
          | Ok (vs, v, (x, y)) =>
              let fd' := match ms with [] => fd | _ => db end in
              let '(s, r) := f m s x (Some y) v Weight fd' td db in
              match r with
              | Raise e => (s :: ks, Raise e)
              | Ok vk =>
                  let vs := match vk with VNone => vs | t => t :: vs end in
                  if Nat.eqb k 0 then (s :: ks, Ok (vs, v))
                  else let '(s, r) := f m s x (Some y) v Input fd' db db in
                       (s :: ks, v <- r ;; Ok (vs, v))
              end
          end
      end.
  End JTmjp.

  (** jTmjp (sequential.py:290-347, skipconnection.py:179-226, maxpool2d.py:224-304) *)
  Fixpoint jTmjp (m : module) (s : st) (x : T) (val : option T) (mat : value) (w : wrt) (fd td db : bool)
    {struct m} : st * res value :=
    match m with
    | Leaf l => (s, mt <- to_opt mat ;; r <- leaf_jTmjp l x val mt w fd td db ;; Ok (of_opt r))
    | MaxPool cfg =>
        let '(s, r) := ensure m s x val in
        (s, y <- r ;; mt <- to_opt mat ;;
            r <- pool_jTmjp (st_idx s) x y mt w fd td db ;; Ok (of_opt r))
    | Seq hooks ms =>
        if db_ok fd td db then
          let '(s, r) := ensure m s x val in
          match (y <- r ;;
                 match mat with
                 | VNone => match shape y with
                            | [] => Raise IndexError
                            | b :: sh => Ok (VT (ones [b; numel sh]), true)
                            end
                 | v => Ok (v, fd)
                 end) with
          | Raise e => (s, Raise e)
          | Ok (mt, fd) =>
              match w with
              | Weight =>
                  let '(ks, r) := seq_jTmjp_w jTmjp hooks (st_fm s) ms (st_kids s) 0 mt fd td db in
                  (St (st_fm s) (st_idx s) ks,
                   '(vs, _) <- r ;;
                   match vs with
                   | [] => Ok VNone
                   | _ => if td then ts <- mapM to_tensor vs ;; c <- cat n0 1 ts ;; Ok (VT c)
                          else Ok (VL vs)
                   end)
              | _ =>
                  let '(ks, r) := seq_jTmjp_in jTmjp hooks (st_fm s) ms (st_kids s) 0 mt fd td db in
                  (St (st_fm s) (st_idx s) ks,
                   v <- r ;; match w with Input => Ok v | _ => Ok VNone end)
              end
          end
        else (s, Raise AssertionError)
    | Skip F =>
        if db_ok fd td db then
          let '(s, r) := ensure m s x val in
          match (y <- r ;;
                 '(mt, fd) <- match mat with
                              | VNone => Ok (ones (shape y), true)
                              | v => t <- to_tensor v ;; Ok (t, fd)
                              end ;;
                 l <- numel0 x ;;
                 t <- slice_from n0 1 l y ;;
                 sub <- slice_from n0 1 l mt ;;
                 sub <- (if fd then Ok sub else slice_from n0 2 l sub) ;;
                 Ok (mt, fd, l, t, sub)) with
          | Raise e => (s, Raise e)
          | Ok (mt, fd, l, t, sub) =>
              let '(k, r) := jTmjp F (st_kid s) x (Some t) (VT sub) w fd td db in
              let s := set_kid s k in
              match r with
              | Raise e => (s, Raise e)
              | Ok j =>
                  match w with
                  | Input =>
                      if fd then
                        (s, a <- slice n0 1 0 l mt ;;
                            a <- (if td then Ok a else diag_embed a) ;;
                            j <- to_tensor j ;; r <- tadd j a ;; Ok (VT r))
                      else
                        match (a <- slice n0 1 0 l mt ;; slice_from n0 2 l a) with
                        | Raise e => (s, Raise e)
                        | Ok m12 =>
                            let '(k, r) := mjp F (st_kid s) x (Some t) (Some m12) w in
                            let s := set_kid s k in
                            match (mj <- r ;; mj <- need mj ;;
                                   a <- slice_from n0 1 l mt ;; a <- slice n0 2 0 l a ;;
                                   a <- transpose12 n0 a ;; Ok (mj, a)) with
                            | Raise e => (s, Raise e)
                            | Ok (mj, m21T) =>
                                let '(k, r) := mjp F (st_kid s) x (Some t) (Some m21T) w in
                                let s := set_kid s k in
                                (s, jm <- r ;; jm <- need jm ;; jm <- transpose12 n0 jm ;;
                                    j <- to_tensor j ;;
                                    m11 <- slice n0 1 0 l mt ;; m11 <- slice n0 2 0 l m11 ;;
                                    if td then
                                      mj <- einsum "bii->bi" [mj] ;; jm <- einsum "bii->bi" [jm] ;;
                                      m11 <- einsum "bii->bi" [m11] ;;
                                      r <- tadd j mj ;; r <- tadd r jm ;; r <- tadd r m11 ;; Ok (VT r)
                                    else
                                      r <- tadd j mj ;; r <- tadd r jm ;; r <- tadd r m11 ;; Ok (VT r))
                            end
                        end
                  | Weight => (s, Ok j)
                  | Other => (s, Ok VNone)
                  end
              end
          end
        else (s, Raise AssertionError)
    end.

  (** *** get_weight and set_weight (abstract_jacobian.py:235-246) *)
  (** self.parameters(): weight then bias of each layer, layers in order *)
  Definition leaf_params (l : leaf) : list T :=
    match l with
    | Linear W b | Conv2d _ W b => W :: match b with Some t => [t] | None => [] end
    | _ => []
    end.
  Fixpoint params (m : module) : list T :=
    match m with
    | Leaf l => leaf_params l
    | MaxPool _ => []
    | Seq _ ms => flat_map params ms
    | Skip F => params F
    end.
  (** torch.nn.utils.parameters_to_vector: torch.cat of the flattened parameters; the empty list
      raises (torch.cat of nothing) *)
  Definition get_weight (m : module) : res T :=
    match params m with
    | [] => Raise RuntimeError
    | ps => let d := flat_map (@data K) ps in Ok (mkT [List.length d] d)
    end.
  (** vec[pointer:pointer + num].view_as(param): raises when the slice is too short; [vec] is the
      remaining part of the vector *)
  Definition take_param (p : T) (vec : list K) : res (T * list K) :=
    let n := numel (shape p) in
    if Nat.leb n (List.length vec) then Ok (mkT (shape p) (firstn n vec), skipn n vec)
    else Raise RuntimeError.
  Definition leaf_set (l : leaf) (vec : list K) : leaf * res (list K) :=
    match l with
    | Linear W b =>
        match take_param W vec with
        | Raise e => (l, Raise e)
        | Ok (W, vec) =>
            match b with
            | None => (Linear W None, Ok vec)
            | Some t => match take_param t vec with
                        | Raise e => (Linear W (Some t), Raise e)
                        | Ok (t, vec) => (Linear W (Some t), Ok vec)
                        end
            end
        end
    | Conv2d c W b =>
        match take_param W vec with
        | Raise e => (l, Raise e)
        | Ok (W, vec) =>
            match b with
            | None => (Conv2d c W None, Ok vec)
            | Some t => match take_param t vec with
                        | Raise e => (Conv2d c W (Some t), Raise e)
                        | Ok (t, vec) => (Conv2d c W (Some t), Ok vec)
                        end
            end
        end
    | _ => (l, Ok vec)
    end.
  Section SetParams.
    Variable f : module -> list K -> module * res (list K).
    Fixpoint seq_set (ms : list module) (vec : list K) : list module * res (list K) :=
      match ms with
      | [] => ([], Ok vec)
      | m :: ms =>
          let '(m, r) := f m vec in
          match r with
          | Raise e => (m :: ms, Raise e)
          | Ok vec => let '(ms, r) := seq_set ms vec in (m :: ms, r)
          end
      end.
  End SetParams.
  (** torch.nn.utils.vector_to_parameters: assigns in order, ignores what is left of the vector *)
  Fixpoint set_params (m : module) (vec : list K) : module * res (list K) :=
    match m with
    | Leaf l => let '(l, r) := leaf_set l vec in (Leaf l, r)
    | MaxPool _ => (m, Ok vec)
    | Seq h ms => let '(ms, r) := seq_set set_params ms vec in (Seq h ms, r)
    | Skip F => let '(F, r) := set_params F vec in (Skip F, r)
    end.
  Definition set_weight (m : module) (weight : T) : module * res unit :=
    let '(m, r) := set_params m (data weight) in (m, _ <- r ;; Ok tt).
End Module.
Arguments leaf K : clear implicits. Arguments module K : clear implicits. Arguments st K : clear implicits. Arguments value K : clear implicits.
Arguments custom K : clear implicits.
