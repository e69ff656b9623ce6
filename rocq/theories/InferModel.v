(** Inference over a dataset: get_infer_fn (t5x/utils.py 1526-1817) and
    _extract_tokens_and_aux_values (t5x/infer.py 342-362).

    A dataset is a list of pairs of an index and an example.  Every shard is
    read by one replica set; what the partitioned infer step returns is
    replicated on all hosts, so there is one result.  Copies to the host,
    logging and dtypes are not modelled.  An exception is None. *)
From Coq Require Import List ZArith Lia Bool.
Import ListNotations.
Set Implicit Arguments.

(** tf.data.Dataset.shard(H, s): the elements whose position, counted from [c]
    here, is s modulo H.  Called at utils.py 1653. *)
Fixpoint shard_from (A : Type) (H s c : nat) (l : list A) : list A :=
  match l with
  | [] => []
  | x :: r => if Nat.eqb (c mod H) s then x :: shard_from H s (S c) r
              else shard_from H s (S c) r
  end.

(** tf.data.Dataset.batch(b, drop_remainder=True), utils.py 1653-1655. *)
Definition batches (A : Type) (b : nat) (l : list A) : list (list A) :=
  map (fun t => firstn b (skipn (t * b) l)) (seq 0 (length l / b)).

(** numpy indexing by an array of indices that are not negative: every index
    must be in range (IndexError). *)
Fixpoint take_all (A : Type) (l : list A) (idx : list Z) : option (list A) :=
  match idx with
  | [] => Some []
  | i :: r => match nth_error l (Z.to_nat i), take_all l r with
              | Some x, Some t => Some (x :: t)
              | _, _ => None
              end
  end.

Section Infer.
  Variables (X O A R : Type).
  (** The model's step on a global batch: for each row an output and its
      auxiliary values, under an optional random key. *)
  Variable infer_step : option R -> list X -> list (O * A).
  (** jax.random.split(rng): the key of this step and the one kept. *)
  Variable split : R -> R * R.

  (** Padding of the dataset, utils.py 1635-1650: copies of the first example
      with index -1 up to a whole number of batches. *)
  Definition pad (B : nat) (ds : list (Z * X)) : list (Z * X) :=
    let rem := length ds mod B in
    if Nat.eqb rem 0 then ds
    else match ds with
         | [] => ds
         | (_, x) :: _ => ds ++ repeat ((-1)%Z, x) (B - rem)
         end.

  (** The batches of each shard, then the global batch of each step: the rows of
      the shards in order of their number, as host_local_array_to_global_array
      lays them out along the data axis (utils.py 1653-1716).  None: the number
      of batches differs between shards (multihost_assert_equal, 1656-1658). *)
  Definition shard_batches (B H : nat) (ds : list (Z * X)) : list (list (list (Z * X))) :=
    map (fun s => batches (B / H) (shard_from H s 0 ds)) (seq 0 H).
  Definition global_batches (B H : nat) (ds : list (Z * X)) : option (list (list (Z * X))) :=
    let sb := shard_batches B H ds in
    let n := length (hd [] sb) in
    if forallb (fun bs => Nat.eqb (length bs) n) sb
    then Some (map (fun t => concat (map (fun bs => nth t bs []) sb)) (seq 0 n))
    else None.

  (** The loop over batches, utils.py 1670-1745. *)
  Fixpoint run_batches (bs : list (list (Z * X))) (rng : option R) : list Z * list (O * A) :=
    match bs with
    | [] => ([], [])
    | b :: r =>
        let '(key, rng') := match rng with
                            | None => (None, None)
                            | Some k => let '(k1, k2) := split k in (Some k1, Some k2)
                            end in
        let '(is, os) := run_batches r rng' in
        (map fst b ++ is, infer_step key (map snd b) ++ os)
    end.

  (** _remove_padding, utils.py 1526-1540: the mask of the indices is applied to
      both arrays. *)
  Definition remove_padding (is : list Z) (os : list (O * A)) : list Z * list (O * A) :=
    let kept := filter (fun p => (0 <=? fst p)%Z) (combine is os) in
    (map fst kept, map snd kept).

  (** infer_fn, utils.py 1615-1815: indices with outputs, and the auxiliary
      values as a separate list.  With no batch at all jax.tree.map is called
      without a tree (1750), which raises. *)
  Definition infer_fn (B H : nat) (ds : list (Z * X)) (rng : option R)
    : option (list (Z * O) * list A) :=
    match global_batches B H (pad B ds) with
    | None | Some [] => None
    | Some bs =>
        let '(is0, os0) := run_batches bs rng in
        let '(is, os) := remove_padding is0 os0 in
        (* 1762-1763 *)
        match take_all os is, take_all is is with
        | Some os', Some is' =>
            if Nat.eqb (length (combine is' os')) (length ds)
            then Some (combine is' (map fst os'), map snd os')
            else None
        | _, _ => None
        end
    end.

  (** np.argsort, whose documentation says that indexing by it sorts. *)
  Variable argsort : list Z -> list nat.

  (** _extract_tokens_and_aux_values, the branch with auxiliary values
      (infer.py 345-356). *)
  Definition permute (T : Type) (perm : list nat) (l : list T) : option (list T) :=
    take_all l (map Z.of_nat perm).
  Definition extract (res : list (Z * O) * list A) : option (list O * list A) :=
    let perm := argsort (map fst (fst res)) in
    match permute perm (map snd (fst res)), permute perm (snd res) with
    | Some t, Some a => Some (t, a)
    | _, _ => None
    end.

  (** The branch without (357-360): Python's stable sort by index. *)
  Fixpoint insert (p : Z * O) (l : list (Z * O)) : list (Z * O) :=
    match l with
    | [] => [p]
    | q :: r => if (fst p <=? fst q)%Z then p :: l else q :: insert p r
    end.
  Definition sort_by_index (l : list (Z * O)) : list (Z * O) := fold_right insert [] l.
  Definition extract_tokens (l : list (Z * O)) : list O := map snd (sort_by_index l).
End Infer.
