(** Model of mesh construction. Source: /repo/t5x/partitioning.py:78-291, 294-411
    and /repo/t5x/contrib/moe/partitioning.py:59-118. *)
From Coq Require Import String.
From Coq Require Import List Bool Arith ZArith.
From Verif Require Import Base NdArray.
Import ListNotations.
Open Scope nat_scope.

Fixpoint map2 {A B C} (f : A -> B -> C) (a : list A) (b : list B) : list C :=
  match a, b with x :: a', y :: b' => f x y :: map2 f a' b' | _, _ => [] end.

(** A device: its coordinates as returned by get_coords (partitioning.py:94-98) and
    whatever else identifies it. *)
Record device (D : Type) := mk_dev { coords : list nat; ident : D }.
Arguments mk_dev {D}. Arguments coords {D}. Arguments ident {D}.

Fixpoint lexleb (a b : list nat) : bool :=
  match a, b with
  | [], _ => true
  | _ :: _, [] => false
  | x :: a', y :: b' => (x <? y) || ((x =? y) && lexleb a' b')
  end.

(** Where the devices are: TPUs have three coordinates and a core number;
    elsewhere the mesh is processes by local devices. *)
Inductive platform := Tpu | Other (process_count local_device_count : nat).

Section Mesh.
  Context {D : Type}.
  Notation dev := (device D).

  (** partitioning.py:155-156: sorted(devices, key=get_coords)[-1]. None for an
      empty list. *)
  Definition last_device (l : list dev) : option dev :=
    match rev (isort (fun a b => lexleb (coords a) (coords b)) l) with [] => None | d :: _ => Some d end.

  (** partitioning.py:78-91 *)
  Definition bounds_from_last_device (p : platform) (d : dev) : list nat :=
    match p with Tpu => map S (coords d) | Other a b => [a; b] end.

  Fixpoint eqb_list (a b : list nat) : bool :=
    match a, b with
    | [], [] => true
    | x :: a', y :: b' => (x =? y) && eqb_list a' b'
    | _, _ => false
    end.
  Definition in_bounds (g c : list nat) : bool := (length c =? length g) && forallb (fun b => b) (map2 Nat.ltb c g).

  (** partitioning.py:171-174: np.empty filled device by device; a later device
      with the same coordinates replaces an earlier one. None: IndexError. All
      coordinates have as many components as the mesh. *)
  Definition place (g : list nat) (devs : list dev) : option (arr (option dev)) :=
    if forallb (fun d => in_bounds g (coords d)) devs
    then Some (mk_arr g (fun idx => find (fun d => eqb_list (coords d) idx) (rev devs)))
    else None.

  (** [g % m] is 0; a zero divisor is an exception, so not a success either. *)
  Definition divides (g m : nat) : bool := negb (m =? 0) && (g mod m =? 0).

  (** ndarray.transpose, with the check that there is one entry per axis. *)
  Definition transpose_checked {A} (perm : list nat) (a : arr A) : option (arr A) :=
    if length perm =? length (shape a) then Some (transpose perm a) else None.
  (** ndarray.reshape(-1, m) *)
  Definition reshape_last {A} (m : nat) (a : arr A) : option (arr A) :=
    if divides (prod (shape a)) m then reshape [prod (shape a) / m; m] a else None.

  (** partitioning.py:207-227, dh_dd_mh_md; None: assertion. *)
  Definition dh_dd_mh_md (g m l : nat) : option (list nat) :=
    let d := g / m in
    if l <=? m then (if divides m l then Some [d; 1; m / l; l] else None)
    else if divides l m then Some [d / (l / m); l / m; 1; m] else None.
  (** map over three sequences, stopping at the shortest. *)
  Fixpoint tile_tups (g m l : list nat) : option (list (list nat)) :=
    match g, m, l with
    | a :: g', b :: m', c :: l' =>
        match dh_dd_mh_md a b c, tile_tups g' m' l' with Some t, Some r => Some (t :: r) | _, _ => None end
    | _, _, _ => Some []
    end.
  (** partitioning.py:245-248 *)
  Definition data_model_tups (g m : list nat) : list (list nat) := map2 (fun a b => [a / b; b]) g m.

  (** (k*i for i in range(n)), (k*i+1 for i in range(n)), ... (partitioning.py:
      237-240 with k = 4, 253-254 with k = 2). *)
  Definition block_perm (k n : nat) : list nat := flat_map (fun j => map (fun i => k * i + j) (seq 0 n)) (seq 0 k).

  (** partitioning.py:232-240 and 249-256: split each axis, gather the parts, and
      flatten to (data, model). [n] is mesh_ndim. *)
  Definition rearrange {A} (k n : nat) (tups : list (list nat)) (sub : list nat) (a : arr A) : option (arr A) :=
    match reshape (concat tups) a with
    | None => None
    | Some a => match transpose_checked (block_perm k n) a with
                | None => None
                | Some a => reshape_last (prod sub) a
                end
    end.

  (** partitioning.py:176-202: the two Z-major cases; state is (mesh bounds,
      submesh, devices, tile_by_host). None: assertion, or a submesh without four
      entries. *)
  Definition zmajor_state A := (list nat * list nat * arr A * bool)%type.
  Definition zmajor {A} (g m : list nat) (a : arr A) (tile : bool) : option (zmajor_state A) :=
    match g with
    | [gx; gy; gz; gc] =>
        match m with
        | [mx; my; mz; mc] =>
            let st1 :=
              if ((mx =? gx) && (1 <? gx) && (my =? mz) && (mz =? 1))
                 || ((mx =? 1) && (my =? gy) && (1 <? gy) && (mz =? gz) && (1 <? gz))
              then if mc =? gc then Some ([gx; gz; gy; gc], [mx; mz; my; mc], transpose [0; 2; 1; 3] a, false) else None
              else Some (g, m, a, tile) in
            match st1 with
            | None => None
            | Some (g1, m1, a1, t1) =>
                if ((my =? gy) && (1 <? gy) && (mx =? mz) && (mz =? 1))
                   || ((my =? 1) && (mx =? gx) && (1 <? gx) && (mz =? gz) && (1 <? gz))
                then if mc =? gc then Some ([gz; gy; gx; gc], [mz; my; mx; mc], transpose [2; 1; 0; 3] a1, false) else None
                else Some (g1, m1, a1, t1)
            end
        | _ => None
        end
    | _ => Some (g, m, a, tile)
    end.

  (** partitioning.py:107-262, get_mesh. The submesh has non-negative entries.
      None: an exception. *)
  Definition get_mesh (p : platform) (sub : list nat) (devs local_devs : list dev) (tile_by_host_if_needed : bool)
    : option (arr (option dev)) :=
    match last_device devs, last_device local_devs with
    | Some ld, Some ll =>
        let g := bounds_from_last_device p ld in
        let l := bounds_from_last_device p ll in
        if forallb (fun b => b) (map2 divides g sub) && forallb (fun b => b) (map2 divides g l) then
          match place g devs with
          | None => None
          | Some a =>
              match zmajor g sub a tile_by_host_if_needed with
              | None => None
              | Some (g1, m1, a1, tile) =>
                  if tile
                  then match tile_tups g1 m1 l with
                       | None => None
                       | Some tups => rearrange 4 (length g) tups m1 a1
                       end
                  else rearrange 2 (length g) (data_model_tups g1 m1) m1 a1
              end
          end
        else None
    | _, _ => None
    end.
End Mesh.

(** partitioning.py:372-405: default_mesh on TPUs; None: ValueError. *)
Inductive kind := TpuV2 | TpuV3 | TpuV4 | TpuV4Lite | OtherKind.
Definition default_submesh (k : kind) (b : list nat) (n : nat) : option (list nat) :=
  let bound i := nth i b 0 in
  match k with
  | TpuV2 | TpuV3 =>
      if n =? 1 then Some [1; 1; 1; 1] else if n =? 2 then Some [1; 1; 1; 2]
      else if n =? 4 then Some [2; 1; 1; 2] else if n =? 8 then Some [2; 2; 1; 2]
      else if n =? 16 then Some [4; 2; 1; 2] else None
  | TpuV4 | TpuV4Lite =>
      if bound 3 =? 1 then
        if n =? 1 then Some [1; 1; 1; 1] else if n =? 2 then Some [1; 2; 1; 1]
        else if n =? 4 then (if 4 <=? bound 0 then Some [4; 1; 1; 1] else Some [2; 2; 1; 1])
        else if n =? 8 then (if 8 <=? bound 2 then Some [1; 1; 8; 1] else Some [4; 2; 1; 1])
        else if n =? 16 then
          (if 16 <=? bound 2 then Some [1; 1; 16; 1] else if 8 <=? bound 0 then Some [8; 2; 1; 1]
           else if 4 <=? bound 0 then Some [4; 4; 1; 1] else Some [2; 2; 4; 1])
        else None
      else None
  | OtherKind => None
  end.

(** partitioning.py:272-281, get_gpu_mesh up to the call of
    create_hybrid_device_mesh: (nvlink_dp, nvlink_mp) and (dcn_dp, dcn_mp). None:
    assertion or division by zero. *)
Definition gpu_shapes (num_partitions local processes : nat) : option ((nat * nat) * (nat * nat)) :=
  let nvlink_mp := Nat.min num_partitions local in
  if nvlink_mp =? 0 then None
  else if negb ((local mod nvlink_mp =? 0) && (num_partitions mod nvlink_mp =? 0)) then None
  else
    let dcn_mp := num_partitions / nvlink_mp in
    Some ((local / nvlink_mp, nvlink_mp), (processes / dcn_mp, dcn_mp)).

(** contrib/moe/partitioning.py:100-106: the search for the size of the expert
    axis, on integers; Python's % has the sign of the divisor, as Z.modulo.
    ZeroDivisionError as a value; [fuel] bounds the iterations. *)
Inductive search := Found (e : Z) | DivisionByZero | OutOfFuel.
Fixpoint expert_axis (fuel : nat) (data e : Z) : search :=
  match fuel with
  | O => OutOfFuel
  | S f => if (e =? 0)%Z then DivisionByZero
           else if (data mod e =? 0)%Z then Found e else expert_axis f data (e - 1)
  end.

(** contrib/moe/partitioning.py:95-112: the base mesh has shape (data, model). *)
Definition default_moe_mesh {A} (fuel : nat) (num_expert : Z) (base : arr A) : option (arr A) :=
  match shape base with
  | [data; model] =>
      match expert_axis fuel (Z.of_nat data) num_expert with
      | Found e => if (0 <? e)%Z then
            let e := Z.to_nat e in
            if divides (data * model) (e * model) then reshape [data * model / (e * model); e; model] base else None
          else None
      | _ => None
      end
  | _ => None
  end.
