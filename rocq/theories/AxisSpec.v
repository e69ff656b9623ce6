(** What a priority-based assignment of mesh axes is, without going through the rules. *)
From Coq Require Import List Bool String.
From Verif Require Import Str PyDict StateModel AxisModel.
Import ListNotations.

(** Two dimensions have the same name. *)
Definition ambiguous (d : dims) : Prop :=
  exists i j n, i <> j /\ nth_error d i = Some (Some n) /\ nth_error d j = Some (Some n).

Definition disjoint (m m' : mesh) : Prop := forall a, In a (leaves m) -> ~ In a (leaves m').

(** [g] says which rule (by its number) decides a name.  Rule number [j] decides its
    name if and only if the array has a dimension with that name, and no earlier deciding
    rule has the same name or shares a mesh axis. *)
Definition priority (d : dims) (rs : rules) (g : str -> option nat) : Prop :=
  (forall n j, g n = Some j -> exists m, nth_error rs j = Some (n, m)) /\
  (forall j n m, nth_error rs j = Some (n, m) ->
     (g n = Some j <->
      In (Some n) d /\
      forall n' j' m', j' < j -> g n' = Some j' -> nth_error rs j' = Some (n', m') -> n' <> n /\ disjoint m m')).

(** The mesh axes of a dimension. *)
Definition outcome (rs : rules) (g : str -> option nat) (x : option str) : mesh :=
  match x with
  | None => MNone
  | Some n => match g n with
              | Some j => match nth_error rs j with Some (_, m) => m | None => MNone end
              | None => MNone
              end
  end.

(** The same dictionary, with [f] at every leaf. *)
Inductive mapped {A B} (f : A -> B) : tree A -> tree B -> Prop :=
| mapped_leaf : forall a, mapped f (Leaf a) (Leaf (f a))
| mapped_node : forall kvs kvs', Forall2 (fun x y => fst x = fst y /\ mapped f (snd x) (snd y)) kvs kvs' ->
    mapped f (Node kvs) (Node kvs').

(** The sharding of T5X models, dimension by dimension.  [has] says which names the
    array has.  The dimension named vocab, mlp, heads or joined_kv is split over the model
    axis, but only one of them, in this order of preference. *)
Section Table.
  Variable has : str -> bool.
  Definition is (x : str) (s : string) : bool := str_eqb x (s_ s).
  Definition model_used : bool := has (s_ "vocab") || has (s_ "mlp") || has (s_ "heads") || has (s_ "joined_kv").
  Definition unless (b : bool) (m : mesh) : mesh := if b then MNone else m.
  Definition embed_mesh (activation parameter : nat) : mesh :=
    match activation, parameter with
    | 2, 1 => unless model_used (x_ "model")
    | 1, 2 => unless (has (s_ "batch")) (x_ "data")
    | 2, 2 => if model_used then unless (has (s_ "batch")) (x_ "data") else x_ "model"
    | _, _ => MNone
    end.
  Definition standard_mesh (activation parameter : nat) (x : str) : mesh :=
    if is x "batch" then x_ "data"
    else if is x "vocab" then x_ "model"
    else if is x "mlp" then unless (has (s_ "vocab")) (x_ "model")
    else if is x "heads" then unless (has (s_ "vocab") || has (s_ "mlp")) (x_ "model")
    else if is x "joined_kv" then unless (has (s_ "vocab") || has (s_ "mlp") || has (s_ "heads")) (x_ "model")
    else if is x "embed" then embed_mesh activation parameter
    else MNone.
  (** With experts: a batch is split over the expert and the data axis, the experts over
      the expert axis, the inner dimension of the experts over the model axis if nothing
      else uses it. *)
  Definition moe_mesh (activation : nat) (x : str) : mesh :=
    if is x "batch" then MAxes [s_ "expert"; s_ "data"]
    else if is x "expert" then unless (has (s_ "batch")) (x_ "expert")
    else if is x "expert_mlp" then
      unless (model_used || match activation with 2 => has (s_ "embed") | _ => false end) (x_ "model")
    else if is x "expert_replicas" then unless (has (s_ "batch")) (x_ "data")
    else standard_mesh activation 1 x.
End Table.

(** The first rule for a name. *)
Inductive first_rule (n : str) : rules -> mesh -> Prop :=
| first_here : forall m r, first_rule n ((n, m) :: r) m
| first_later : forall k m r m', k <> n -> first_rule n r m' -> first_rule n ((k, m) :: r) m'.

(** The names of some leaf are ambiguous. *)
Inductive bad_leaf : tree (option dims) -> Prop :=
| bad_here : forall d, ambiguous d -> bad_leaf (Leaf (Some d))
| bad_below : forall kvs k c, In (k, c) kvs -> bad_leaf c -> bad_leaf (Node kvs).

(** The axis resources of a computation with every PartitionSpec of the data axis
    replaced, wherever it is. *)
Fixpoint everywhere (r : resources) : resources :=
  match r with
  | Spec [MAxis a] => if str_eqb a (s_ "data") then Spec [MAxes [s_ "expert"; s_ "data"]] else r
  | Spec _ => r
  | Seq l => Seq (map everywhere l)
  | Other _ => r
  end.
(** Every PartitionSpec of the data axis is at the top or in a sequence at the top. *)
Definition shallow (r : resources) : Prop :=
  match r with
  | Seq l => forall q, In q l -> match q with Seq _ => everywhere q = q | _ => True end
  | _ => True
  end.
