(** Networks edited after construction.  nn.Sequential's append, insert, item assignment and del change self._modules,
    which forward, jvp and jmp run through; the other products run through self._modules_list, which sequential.py:12
    fills once, and read the feature maps of the hooks that sequential.py:26-29 registered once.  Here: a Sequential with
    hooks of which the list of layers is edited (the layers themselves, however nested, are not). *)
From Coq Require Import List Arith ZArith Lia Bool.
From Verif Require Import Scalar Tensor Conv Abstract Simple LinearLayer ConvLayer PoolLayer Module.
Import ListNotations.
Local Open Scope nat_scope.
Local Open Scope list_scope.

(** Kept: in self._modules and in self._modules_list, with a hook.  Added: only in self._modules, without a hook.  Removed: only in
    self._modules_list.  The edits keep the order of both lists, so that one list of marked layers describes both. *)
Inductive mark := Kept | Added | Removed.
Definition runs (g : mark) : bool := match g with Removed => false | _ => true end.
Definition listed (g : mark) : bool := match g with Added => false | _ => true end.
Definition has_hook (g : mark) : bool := match g with Kept => true | _ => false end.

Section Edit.
  Context {K} `{Num K}.
  Notation T := (tensor K).

  (** a layer object: the mark, the layer and its hidden state *)
  Record lobj := Ent { e_mark : mark; e_mod : module K; e_st : st K }.
  (** a Sequential: self.feature_maps and its layers *)
  Record edited := Ed { e_fm : list T; e_ents : list lobj }.

  (** sequential.py:10-29 *)
  Definition construct (ms : list (module K)) : edited := Ed [] (map (fun m => Ent Kept m st0) ms).
  (** model.append(m) *)
  Definition append (m : module K) (E : edited) : edited := Ed (e_fm E) (e_ents E ++ [Ent Added m st0]).
  (** model.insert(i, m), for 0 <= i <= len(model) *)
  Fixpoint insert_at (i : nat) (m : module K) (es : list lobj) : list lobj :=
    match es, i with
    | [], _ | _, O => Ent Added m st0 :: es
    | e :: es, S j => e :: insert_at (if runs (e_mark e) then j else i) m es
    end.
  Definition insert (i : nat) (m : module K) (E : edited) : edited := Ed (e_fm E) (insert_at i m (e_ents E)).
  (** del model[i], for 0 <= i < len(model) *)
  Fixpoint delete_at (i : nat) (es : list lobj) : list lobj :=
    match es with
    | [] => []
    | e :: es =>
        match e_mark e, i with
        | Removed, _ => e :: delete_at i es
        | Kept, O => Ent Removed (e_mod e) (e_st e) :: es
        | Added, O => es
        | _, S j => e :: delete_at j es
        end
    end.
  Definition delete (i : nat) (E : edited) : edited := Ed (e_fm E) (delete_at i (e_ents E)).
  (** model[i] = m *)
  Definition assign (i : nat) (m : module K) (E : edited) : edited := delete (S i) (insert i m E).

  (** self._modules and self._modules_list *)
  Definition running (E : edited) : list lobj := filter (fun e => runs (e_mark e)) (e_ents E).
  Definition old_list (E : edited) : list lobj := filter (fun e => listed (e_mark e)) (e_ents E).
  Definition count (es : list lobj) : nat := fold_right (fun e n => n_params (e_mod e) + n) 0 es.
  (** self._n_params: sequential.py:15-19, computed once *)
  Definition e_n_params (E : edited) : nat := count (old_list E).

  (** the hidden states of self._modules_list, written back *)
  Fixpoint put (es : list lobj) (ks : list (st K)) : list lobj :=
    match es with
    | [] => []
    | e :: es =>
        if listed (e_mark e)
        then match ks with [] => e :: es | k :: ks => Ent (e_mark e) (e_mod e) k :: put es ks end
        else e :: put es ks
    end.
  Definition put_back (E : edited) (ks : list (st K)) : edited := Ed (e_fm E) (put (e_ents E) ks).

  (** sequential.py:30-36 *)
  Fixpoint e_seq_forward (es : list lobj) (x : T) (fm : list T) : list lobj * list T * res T :=
    match es with
    | [] => ([], fm, Ok x)
    | Ent g m s :: es =>
        if runs g then
          let '(s, r) := forward m s x in
          match r with
          | Raise e => (Ent g m s :: es, fm, Raise e)
          | Ok y => let '(es, fm, r) := e_seq_forward es y (hook_push (has_hook g) fm y) in (Ent g m s :: es, fm, r)
          end
        else let '(es, fm, r) := e_seq_forward es x fm in (Ent g m s :: es, fm, r)
    end.
  Definition e_forward (E : edited) (x : T) : edited * res T :=
    let '(es, fm, r) := e_seq_forward (e_ents E) x [x] in (Ed fm es, r).
  Definition e_ensure (E : edited) (x : T) (val : option T) : edited * res T :=
    match val with Some v => (E, Ok v) | None => e_forward E x end.

  Definition mods (es : list lobj) : list (module K) := map e_mod es.
  Definition states (es : list lobj) : list (st K) := map e_st es.

  (** sequential.py:218-250 *)
  Definition e_vjp (E : edited) (x : T) (val : option T) (v : T) (w : wrt) : edited * res (option T) :=
    if wrt_ok w then
      let '(E, r) := e_ensure E x val in
      match r with
      | Raise e => (E, Raise e)
      | Ok _ =>
          let l := old_list E in
          match w with
          | Weight =>
              let '(ks, r) := seq_vjp_w vjp true (e_fm E) (mods l) (states l) 0 v in
              (put_back E ks, '(vs, _) <- r ;; match vs with [] => Ok None | _ => some (cat n0 1 vs) end)
          | _ =>
              let '(ks, r) := seq_vjp_in vjp true (e_fm E) (mods l) (states l) 0 v in
              (put_back E ks, some r)
          end
      end
    else (E, Raise AssertionError).

  (** sequential.py:253-287 *)
  Definition e_mjp (E : edited) (x : T) (val : option T) (mat : option T) (w : wrt) : edited * res (option T) :=
    if wrt_ok w then
      let '(E, r) := e_ensure E x val in
      match (y <- r ;;
             match mat with
             | Some mt => Ok mt
             | None => match shape y with [] => Raise IndexError | b :: sh => Ok (eye_repeat b (numel sh)) end
             end) with
      | Raise e => (E, Raise e)
      | Ok mt =>
          let l := old_list E in
          match w with
          | Weight =>
              let '(ks, r) := seq_mjp_w mjp true (e_fm E) (mods l) (states l) 0 (Some mt) in
              (put_back E ks, '(vs, _) <- r ;; match vs with [] => Ok None | _ => some (cat n0 2 vs) end)
          | _ =>
              let '(ks, r) := seq_mjp_in mjp true (e_fm E) (mods l) (states l) 0 (Some mt) in
              (put_back E ks, r)
          end
      end
    else (E, Raise AssertionError).
  (** sequential.py:39-41 *)
  Definition e_jacobian (E : edited) (x : T) (val : option T) (w : wrt) : edited * res (option T) := e_mjp E x val None w.

  (** sequential.py:61-65 *)
  Fixpoint e_seq_jvp_in (es : list lobj) (x : T) (fm : list T) (v : T) : list lobj * list T * res T :=
    match es with
    | [] => ([], fm, Ok v)
    | Ent g m s :: es =>
        if runs g then
          let '(s, r) := forward m s x in
          match r with
          | Raise e => (Ent g m s :: es, fm, Raise e)
          | Ok y =>
              let fm := hook_push (has_hook g) fm y in
              let '(s, r) := jvp m s x (Some y) v Input in
              match (r <- r ;; need r) with
              | Raise e => (Ent g m s :: es, fm, Raise e)
              | Ok v => let '(es, fm, r) := e_seq_jvp_in es y fm v in (Ent g m s :: es, fm, r)
              end
          end
        else let '(es, fm, r) := e_seq_jvp_in es x fm v in (Ent g m s :: es, fm, r)
    end.
  (** sequential.py:67-80 *)
  Fixpoint e_seq_jvp_w (es : list lobj) (x : T) (fm : list T) (v : T) (p : nat) (acc : option T)
    : list lobj * list T * res (option T) :=
    match es with
    | [] => ([], fm, Ok acc)
    | Ent g m s :: es =>
        if runs g then
          let '(s, r) := forward m s x in
          match r with
          | Raise e => (Ent g m s :: es, fm, Raise e)
          | Ok y =>
              let fm := hook_push (has_hook g) fm y in
              let '(s, r) := match acc with None => (s, Ok None) | Some a => jvp m s x (Some y) a Input end in
              match (acc <- r ;; vp <- slice n0 1 p (p + n_params m) v ;; Ok (acc, vp)) with
              | Raise e => (Ent g m s :: es, fm, Raise e)
              | Ok (acc, vp) =>
                  let '(s, r) := jvp m s x (Some y) vp Weight in
                  match (new <- r ;; accumulate acc new) with
                  | Raise e => (Ent g m s :: es, fm, Raise e)
                  | Ok acc => let '(es, fm, r) := e_seq_jvp_w es y fm v (p + n_params m) acc in (Ent g m s :: es, fm, r)
                  end
              end
          end
        else let '(es, fm, r) := e_seq_jvp_w es x fm v p acc in (Ent g m s :: es, fm, r)
    end.
  (** sequential.py:48-82, with the assertion of sequential.py:81 *)
  Definition e_jvp (E : edited) (x : T) (val : option T) (v : T) (w : wrt) : edited * res (option T) :=
    match w with
    | Input => let '(es, fm, r) := e_seq_jvp_in (e_ents E) x (e_fm E) v in (Ed fm es, some r)
    | Weight => let '(es, fm, r) := e_seq_jvp_w (e_ents E) x (e_fm E) v 0 None in
                (Ed fm es, r <- r ;; check (Nat.eqb (count (running E)) (e_n_params E)) AssertionError (Ok r))
    | Other => (E, Raise AssertionError)
    end.

  (** sequential.py:100-104 *)
  Fixpoint e_seq_jmp_in (es : list lobj) (x : T) (fm : list T) (v : option T) : list lobj * list T * res (option T) :=
    match es with
    | [] => ([], fm, Ok v)
    | Ent g m s :: es =>
        if runs g then
          let '(s, r) := forward m s x in
          match r with
          | Raise e => (Ent g m s :: es, fm, Raise e)
          | Ok y =>
              let fm := hook_push (has_hook g) fm y in
              let '(s, r) := jmp m s x (Some y) v Input in
              match r with
              | Raise e => (Ent g m s :: es, fm, Raise e)
              | Ok v => let '(es, fm, r) := e_seq_jmp_in es y fm v in (Ent g m s :: es, fm, r)
              end
          end
        else let '(es, fm, r) := e_seq_jmp_in es x fm v in (Ent g m s :: es, fm, r)
    end.
  (** sequential.py:106-119 *)
  Fixpoint e_seq_jmp_w (es : list lobj) (x : T) (fm : list T) (v : T) (p : nat) (acc : option T)
    : list lobj * list T * res (option T) :=
    match es with
    | [] => ([], fm, Ok acc)
    | Ent g m s :: es =>
        if runs g then
          let '(s, r) := forward m s x in
          match r with
          | Raise e => (Ent g m s :: es, fm, Raise e)
          | Ok y =>
              let fm := hook_push (has_hook g) fm y in
              let '(s, r) := match acc with None => (s, Ok None) | Some a => jmp m s x (Some y) (Some a) Input end in
              match (acc <- r ;; vp <- slice n0 1 p (p + n_params m) v ;;
                     check (Nat.eqb (rank v) 3) IndexError (Ok (acc, vp))) with
              | Raise e => (Ent g m s :: es, fm, Raise e)
              | Ok (acc, vp) =>
                  let '(s, r) := jmp m s x (Some y) (Some vp) Weight in
                  match (new <- r ;; accumulate acc new) with
                  | Raise e => (Ent g m s :: es, fm, Raise e)
                  | Ok acc => let '(es, fm, r) := e_seq_jmp_w es y fm v (p + n_params m) acc in (Ent g m s :: es, fm, r)
                  end
              end
          end
        else let '(es, fm, r) := e_seq_jmp_w es x fm v p acc in (Ent g m s :: es, fm, r)
    end.
  (** sequential.py:85-121, with the assertion of sequential.py:120 *)
  Definition e_jmp (E : edited) (x : T) (val : option T) (mat : option T) (w : wrt) : edited * res (option T) :=
    if wrt_ok w then
      match mat with
      | None => e_jacobian E x val w
      | Some mt =>
          match w with
          | Weight => let '(es, fm, r) := e_seq_jmp_w (e_ents E) x (e_fm E) mt 0 None in
                      (Ed fm es, r <- r ;; check (Nat.eqb (count (running E)) (e_n_params E)) AssertionError (Ok r))
          | _ => let '(es, fm, r) := e_seq_jmp_in (e_ents E) x (e_fm E) (Some mt) in (Ed fm es, r)
          end
      end
    else (E, Raise AssertionError).

  (** sequential.py:124-211 *)
  Definition e_jmjTp (E : edited) (x : T) (val : option T) (mat : value K) (w : wrt) (fd td db : bool) : edited * res (value K) :=
    if db_ok fd td db then
      let '(E, r) := e_ensure E x val in
      match r with
      | Raise e => (E, Raise e)
      | Ok _ =>
          let l := old_list E in
          match w with
          | Input =>
              let '(mt, fd) := match mat with VNone => (VT (ones (shape x)), true) | v => (v, fd) end in
              let '(ks, r) := seq_jmjTp_in jmjTp true (e_fm E) (mods l) (states l) 0 mt fd td db in
              (put_back E ks, r)
          | Weight =>
              match ('(mt, fd) <- match mat with
                                  | VNone => b <- size 0 x ;; Ok (VT (ones [b; e_n_params E]), true)
                                  | v => Ok (v, fd)
                                  end ;;
                     bs <- match mt with
                           | VL l => Ok l
                           | VT t => seq_blocks (mods l) t 0 fd
                           | VNone => Raise TypeError
                           end ;;
                     Ok (bs, fd)) with
              | Raise e => (E, Raise e)
              | Ok (bs, fd) =>
                  let '(ks, r) := seq_jmjTp_w jmjTp true (e_fm E) (mods l) (states l) 0 bs VNone fd td db in
                  (put_back E ks, r)
              end
          | Other => (E, Ok VNone)
          end
      end
    else (E, Raise AssertionError).

  (** sequential.py:290-347 *)
  Definition e_jTmjp (E : edited) (x : T) (val : option T) (mat : value K) (w : wrt) (fd td db : bool) : edited * res (value K) :=
    if db_ok fd td db then
      let '(E, r) := e_ensure E x val in
      match (y <- r ;;
             match mat with
             | VNone => match shape y with [] => Raise IndexError | b :: sh => Ok (VT (ones [b; numel sh]), true) end
             | v => Ok (v, fd)
             end) with
      | Raise e => (E, Raise e)
      | Ok (mt, fd) =>
          let l := old_list E in
          match w with
          | Weight =>
              let '(ks, r) := seq_jTmjp_w jTmjp true (e_fm E) (mods l) (states l) 0 mt fd td db in
              (put_back E ks,
               '(vs, _) <- r ;;
               match vs with
               | [] => Ok VNone
               | _ => if td then ts <- mapM to_tensor vs ;; c <- cat n0 1 ts ;; Ok (VT c) else Ok (VL vs)
               end)
          | _ =>
              let '(ks, r) := seq_jTmjp_in jTmjp true (e_fm E) (mods l) (states l) 0 mt fd td db in
              (put_back E ks, v <- r ;; match w with Input => Ok v | _ => Ok VNone end)
          end
      end
    else (E, Raise AssertionError).
End Edit.
Arguments lobj K : clear implicits.
Arguments edited K : clear implicits.
