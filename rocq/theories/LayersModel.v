(** The layers of the networks, over the reals: t5x/examples/t5/layers.py 52-126 and
    349-702, with the arithmetic of CacheModel.  The files of scalable_t5, decoder_only and
    contrib/gpu/t5 have the same functions.

    Numbers are reals: rounding and the dtypes the code converts to are left out.
    Arrays have a shape and a value for every index. *)
From Coq Require Import List Arith Bool ZArith Reals String Ascii.
From Verif Require Import Str CacheModel.
Import ListNotations.
Local Open Scope R_scope.

(** * Numbers *)
Definition rsum (l : list R) : R := fold_right Rplus 0 l.
(** jnp.max of a list that is not empty. *)
Definition rmax (l : list R) : R := match l with [] => 0 | x :: l => fold_left Rmax l x end.
Definition zip {A B C} (f : A -> B -> C) (a : list A) (b : list B) : list C := map (fun p => f (fst p) (snd p)) (combine a b).
Definition rdot (a b : list R) : R := rsum (zip Rmult a b).
Definition vsum (l : list (list R)) : list R := match l with [] => [] | x :: l => fold_left (zip Rplus) l x end.

(** The arithmetic of CacheModel: queries, keys and values are vectors.  -1e10 is that of
    layers.py 306-314. *)
Definition real_arith : arith := {|
  F := R; V := list R; W := list R; zero := 0; one := 1; neg := - IZR 10000000000;
  fadd := Rplus; fsub := Rminus; fdiv := Rdiv; fexp := exp; fmax := rmax; fsum := rsum;
  dot := rdot; vzero := []; vadd := zip Rplus; vscale := fun c => map (Rmult c);
  wzero := []; wadd := zip Rplus; wscale := fun c => map (Rmult c); wsum := vsum |}.

(** dot_product_attention without dropout, for one query and one head. *)
Definition attention (q : list R) (ks vs : list (list R)) (bias : list R) : list R := attend real_arith q ks vs bias.

(** 109-123: with dropout.  [keep] is what random.bernoulli gives for the keys of this
    head: its shape has a one for the queries, so that it is the same for all of them. *)
Definition attention_dropout (rate : R) (keep : list bool) (q : list R) (ks vs : list (list R)) (bias : list R) : list R :=
  let logits := zip (fun k b => rdot q k + b) ks bias in
  let top := rmax logits in
  let e := map (fun x => exp (x - top)) logits in
  let s := rsum e in
  let multiplier := map (fun b : bool => (if b then 1 else 0) / (1 - rate)) keep in
  vsum (zip (fun w v => map (Rmult w) v) (zip Rmult (map (fun x => x / s) e) multiplier) vs).

(** * DenseGeneral *)
Record tensor := { shape : list nat; at_ : list nat -> R }.
Definition prod (l : list nat) : nat := fold_right Nat.mul 1%nat l.

(** The indices of an array in the order of its elements in memory. *)
Fixpoint indices (sh : list nat) : list (list nat) :=
  match sh with
  | [] => [[]]
  | n :: sh => flat_map (fun i => map (cons i) (indices sh)) (seq 0 n)
  end.
(** jnp.reshape to and from one axis. *)
Fixpoint ravel (sh idx : list nat) : nat :=
  match sh, idx with
  | n :: sh, i :: idx => (i * prod sh + ravel sh idx)%nat
  | _, _ => 0%nat
  end.

(** 349-351: _normalize_axes.  An axis that is out of range makes inputs.shape[ax] or
    lax.dot_general raise: None. *)
Definition normalize_axis (ndim : nat) (ax : Z) : option nat :=
  let a := (if (0 <=? ax) then ax else Z.of_nat ndim + ax)%Z in
  if ((0 <=? a) && (a <? Z.of_nat ndim))%Z then Some (Z.to_nat a) else None.
Fixpoint normalize_axes (ndim : nat) (axes : list Z) : option (list nat) :=
  match axes with
  | [] => Some []
  | ax :: axes =>
      match normalize_axis ndim ax, normalize_axes ndim axes with
      | Some a, Some r => Some (a :: r)
      | _, _ => None
      end
  end.
Definition mem (a : nat) (l : list nat) : bool := existsb (Nat.eqb a) l.
Fixpoint distinct (l : list nat) : bool :=
  match l with [] => true | a :: l => negb (mem a l) && distinct l end.

(** The place of an axis among those contracted. *)
Fixpoint place (a : nat) (axes : list nat) : option nat :=
  match axes with
  | [] => None
  | b :: axes => if Nat.eqb a b then Some 0%nat else option_map S (place a axes)
  end.
(** The index into the inputs of lax.dot_general: the axes in [dims] one after the other,
    contracted ones from [c], the others from [k] in order. *)
Fixpoint merge (axes : list nat) (c : list nat) (dims : list nat) (k : list nat) : list nat :=
  match dims with
  | [] => []
  | d :: dims =>
      match place d axes with
      | Some i => nth i c 0%nat :: merge axes c dims k
      | None => hd 0%nat k :: merge axes c dims (tl k)
      end
  end.
Definition kept (axes : list nat) (ndim : nat) : list nat := filter (fun d => negb (mem d axes)) (seq 0 ndim).

(** 364-414: DenseGeneral.__call__.  [kernel] is the parameter, a matrix; None: an
    exception.  The result has the axes of the inputs that are not contracted, then the
    features. *)
Definition dense (features : list nat) (axis : list Z) (kernel : nat -> nat -> R) (x : tensor) : option tensor :=
  let ndim := List.length (shape x) in
  match normalize_axes ndim axis with
  | None => None
  | Some axes =>
      if distinct axes then
        let csh := map (fun a => nth a (shape x) 0%nat) axes in
        let rest := map (fun d => nth d (shape x) 0%nat) (kept axes ndim) in
        let n := List.length rest in
        Some {| shape := rest ++ features;
                at_ := fun idx =>
                  let k := firstn n idx in
                  let f := skipn n idx in
                  rsum (map (fun c => at_ x (merge axes c (seq 0 ndim) k) * kernel (ravel csh c) (ravel features f)) (indices csh)) |}
      else None
  end.
(** 397-402: the shape of the parameter. *)
Definition kernel_shape (features : list nat) (axis : list Z) (sh : list nat) : option (nat * nat) :=
  option_map (fun axes => (prod (map (fun a => nth a sh 0%nat) axes), prod features)) (normalize_axes (List.length sh) axis).

(** * MlpBlock, for one row *)
(** DenseGeneral with axis -1 and one feature axis, on a vector: kernel is given by its
    columns. *)
Definition matvec (kernel : list (list R)) (x : list R) : list R := map (rdot x) kernel.

(** 417-431: the names of activation functions; [flax] is flax.linen. *)
Inductive activation := Named (s : string) | Callable (f : R -> R) | Neither.
Definition to_function (flax : string -> option (R -> R)) (a : activation) : option (R -> R) :=
  match a with
  | Named s => if String.eqb s "linear" then Some (fun x => x) else flax s
  | Callable f => Some f
  | Neither => None
  end.

(** 461-462: dense_name. *)
Definition dense_name (count idx : nat) : str :=
  if Nat.eqb count 1 then s_ "wi" else s_ "wi_" ++ show_N (N.of_nat idx).

(** functools.reduce(operator.mul, activations); None: of an empty list. *)
Definition reduce_mul (l : list (list R)) : option (list R) :=
  match l with [] => None | x :: l => Some (fold_left (zip Rmult) l x) end.

Fixpoint branches (flax : string -> option (R -> R)) (params : str -> list (list R)) (count idx : nat)
  (acts : list activation) (x : list R) : option (list (list R)) :=
  match acts with
  | [] => Some []
  | a :: acts =>
      match to_function flax a, branches flax params count (S idx) acts x with
      | Some f, Some r => Some (map f (matvec (params (dense_name count idx)) x) :: r)
      | _, _ => None
      end
  end.

(** 434-483: MlpBlock.__call__ at one position.  [multiplier] is that of nn.Dropout: ones
    if deterministic, otherwise 0 or 1 / (1 - rate) for each feature, the same at all
    positions (broadcast_dims). *)
Definition mlp (flax : string -> option (R -> R)) (params : str -> list (list R)) (acts : list activation)
  (multiplier : list R) (x : list R) : option (list R) :=
  match branches flax params (List.length acts) 0 acts x with
  | None => None
  | Some bs =>
      match reduce_mul bs with
      | None => None
      | Some h => Some (matvec (params (s_ "wo")) (zip Rmult h multiplier))
      end
  end.

(** * LayerNorm, 683-702, for one row *)
Definition layer_norm (epsilon : R) (scale x : list R) : list R :=
  let mean2 := rsum (map Rsqr x) / INR (List.length x) in
  let y := map (fun v => v * / sqrt (mean2 + epsilon)) x in
  zip Rmult y scale.

(** * Embed, 490-549 *)
(** 534-536: a product with a one-hot vector; [table] has a row for each token. *)
Definition embed_one_hot (features : nat) (table : list (list R)) (t : Z) : list R :=
  map (fun j => rsum (map (fun ir => (if Z.eqb t (Z.of_nat (fst ir)) then 1 else 0) * nth j (snd ir) 0)
                          (combine (seq 0 (List.length table)) table))) (seq 0 features).
(** 538: indexing of a jax array: negative indices count from the end, others out of range
    are moved into it. *)
Definition embed_gather (table : list (list R)) (t : Z) : list R :=
  let n := Z.of_nat (List.length table) in
  let i := (if t <? 0 then t + n else t)%Z in
  nth (Z.to_nat (Z.max 0 (Z.min i (n - 1)))) table [].
(** 543-549: attend. *)
Definition logits (table : list (list R)) (query : list R) : list R := map (rdot query) table.
