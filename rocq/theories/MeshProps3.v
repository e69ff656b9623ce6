(** Device meshes, concluded: default sub-meshes, GPU meshes, the expert axis
    (C33), findings and examples. *)
From Coq Require Import String.
From Coq Require Import List Bool Arith ZArith Lia Permutation Sorting.
From Verif Require Import Base NdArray NamesModel NamesProps MeshModel MeshProofs MeshLayout ChunkerModel ChunkerProofs ChunkerProps MeshProps MeshProps2.
Import ListNotations.
Open Scope list_scope.
Open Scope nat_scope.
Local Arguments Nat.div : simpl never. Local Arguments Nat.modulo : simpl never.
Print Assumptions C32_every_device_once.
Print Assumptions C32_shared_coordinates_refuted.
Print Assumptions C32_bounds.
Print Assumptions C32_shape.
Print Assumptions C32_no_hole.
Print Assumptions C32_groups_are_tiles.
Print Assumptions C32_order.
Print Assumptions C32_host_blocks.
Print Assumptions C32_even_layout.
Print Assumptions C32_built_iff.

(** ** Concrete machines *)
Definition box (g : list nat) : list (device nat) := map (fun i => mk_dev (unravel g i) i) (seq 0 (prod g)).
Lemma box_full g : 0 < prod g -> full_box g (box g).
Proof.
  intros H. assert (C : map coords (box g) = map (unravel g) (seq 0 (prod g))) by (unfold box; rewrite map_map; reflexivity).
  split; [|split].
  - rewrite C. assert (N := seq_NoDup (prod g) 0). assert (B : forall i, In i (seq 0 (prod g)) -> i < prod g) by (intros i Hi; apply in_seq in Hi; lia).
    revert N B. generalize (seq 0 (prod g)) as s. induction s as [|i s IH]; intros N B; simpl; constructor.
    + intros Hin. apply in_map_iff in Hin. destruct Hin as [j [E Hj]]. inversion N as [|? ? N1 N2]; subst. apply N1.
      assert (i = j); [|now subst]. rewrite <- (ravel_unravel g i), <- (ravel_unravel g j) by (apply B; simpl; auto). congruence.
    + apply IH; [now inversion N|]. intros j Hj. apply B. now right.
  - unfold box. destruct (prod g) as [|n]; [lia|]. discriminate.
  - intros c. rewrite C, in_map_iff. split.
    + intros [i [<- Hi]]. apply in_seq in Hi. apply unravel_inb. lia.
    + intros Hc. exists (ravel g c). split; [now apply unravel_ravel|]. apply in_seq. assert (B := ravel_bound _ _ Hc). lia.
Qed.
Lemma box_hardware g l : 0 < prod g -> 0 < prod l -> length l = length g -> hardware Tpu g l (box g) (box l).
Proof. intros H1 H2 H3. split; [now apply box_full|]. split; auto. now apply box_full. Qed.

(** A 4 x 4 slice with two cores per chip, hosts of 2 x 2 chips, sub-mesh of 2 x 1
    chips: the identifiers (row-major in the hardware) as placed in the mesh. *)
Example C32_ex :
  hardware Tpu [4; 4; 1; 2] [2; 2; 1; 2] (box [4; 4; 1; 2]) (box [2; 2; 1; 2]) /\
  option_map (fun r => (shape r, map ident (somes (elements r)))) (get_mesh Tpu [2; 1; 1; 2] (box [4; 4; 1; 2]) (box [2; 2; 1; 2]) true) =
  Some ([8; 4], [0; 1; 8; 9; 2; 3; 10; 11; 4; 5; 12; 13; 6; 7; 14; 15; 16; 17; 24; 25; 18; 19; 26; 27; 20; 21; 28; 29; 22; 23; 30; 31]) /\
  reordered [4; 4; 1; 2] [2; 1; 1; 2] = false /\ (DD [2; 1; 1; 2] [2; 2; 1; 2], MD [2; 1; 1; 2] [2; 2; 1; 2]) = (2, 4).
Proof. split; [apply box_hardware; auto; vm_compute; lia|]. vm_compute. auto. Qed.

(** A Z-major mesh: 2 x 2 x 2 chips, a line along X. *)
Example C32_zmajor_ex :
  hardware Tpu [2; 2; 2; 1] [2; 1; 1; 1] (box [2; 2; 2; 1]) (box [2; 1; 1; 1]) /\ reordered [2; 2; 2; 1] [2; 1; 1; 1] = true /\
  option_map (fun r => (shape r, map (fun d => coords d) (somes (elements r)))) (get_mesh Tpu [2; 1; 1; 1] (box [2; 2; 2; 1]) (box [2; 1; 1; 1]) true) =
  Some ([4; 2], [[0; 0; 0; 0]; [1; 0; 0; 0]; [0; 1; 0; 0]; [1; 1; 0; 0]; [0; 0; 1; 0]; [1; 0; 1; 0]; [0; 1; 1; 0]; [1; 1; 1; 0]]).
Proof. split; [apply box_hardware; auto; vm_compute; lia|]. vm_compute. auto. Qed.

(** ** Findings *)

(** In a Z-major order a host that spans several layers does not own one block,
    although tiling by host was requested. *)
Theorem C32_zmajor_tall_host_refuted : exists g l sub (devs local_devs : list (device nat)) r,
  hardware Tpu g l devs local_devs /\ length sub = length g /\ get_mesh Tpu sub devs local_devs true = Some r /\
  forall A B, ~ host_blocks g l sub r A B.
Proof.
  exists [2; 2; 2; 1], [2; 1; 2; 1], [2; 1; 1; 1], (box [2; 2; 2; 1]), (box [2; 1; 2; 1]).
  eexists. split; [apply box_hardware; auto; vm_compute; lia|]. split; [reflexivity|]. split; [reflexivity|].
  intros A B [A0 [B0 [_ [_ H]]]].
  assert (C : forall d, d < 4 -> cell [2; 2; 2; 1] [2; 1; 1; 1] d 0) by (intros d Hd; split; vm_compute; lia).
  assert (E02 := H 0 0 2 0 _ _ (C 0 ltac:(lia)) (C 2 ltac:(lia)) eq_refl eq_refl).
  assert (E01 := H 0 0 1 0 _ _ (C 0 ltac:(lia)) (C 1 ltac:(lia)) eq_refl eq_refl).
  vm_compute in E02. destruct (proj1 E02 eq_refl) as [X _].
  assert (Y : 0 / A = 1 / A).
  { assert (Z0 : 0 / A = 2 / A) by exact X. rewrite Nat.div_0_l in Z0 by lia. rewrite Nat.div_0_l by lia.
    destruct (Nat.le_gt_cases A 2) as [L|L]; [exfalso; assert (0 < 2 / A) by (apply Nat.div_str_pos; lia); lia|]. symmetry. apply Nat.div_small. lia. }
  assert (Q : host_of [2; 1; 2; 1] (mk_dev [0; 0; 0; 0] 0) = host_of [2; 1; 2; 1] (mk_dev [0; 1; 0; 0] 2)) by (apply E01; auto).
  vm_compute in Q. discriminate.
Qed.
Print Assumptions C32_zmajor_tall_host_refuted.

(** Off TPUs a submesh with too many entries passes the assertions (zip stops at
    the shorter sequence); the model groups then have the size of the whole tuple,
    not of the part that was checked. *)
Theorem C32_wrong_length_refuted : exists sub (devs local_devs : list (device nat)) r,
  full_box [2; 2] devs /\ length sub = 4 /\ firstn 2 sub = [1; 1] /\
  get_mesh (Other 2 2) sub devs local_devs true = Some r /\ shape r = [1; 4].
Proof.
  exists [1; 1; 2; 2], (box [2; 2]), (box [2; 2]). eexists. split; [apply box_full; vm_compute; lia|]. repeat split; try reflexivity.
Qed.
Print Assumptions C32_wrong_length_refuted.

(** ** Default sub-meshes *)
(** The automatic choice has four entries and as many devices as partitions
    requested; it exists exactly for these requests. *)
Theorem C32_default_submesh : forall k b n,
  (forall s, default_submesh k b n = Some s -> length s = 4 /\ prod s = n /\ Forall (fun x => 0 < x) s) /\
  ((exists s, default_submesh k b n = Some s) <-> In n [1; 2; 4; 8; 16] /\
     match k with TpuV2 | TpuV3 => True | TpuV4 | TpuV4Lite => nth 3 b 0 = 1 | OtherKind => False end).
Proof.
  assert (R : forall n, In n [1; 2; 4; 8; 16] <-> n = 1 \/ n = 2 \/ n = 4 \/ n = 8 \/ n = 16) by (intros n; simpl; intuition).
  intros k b n. rewrite R. unfold default_submesh.
  destruct (Nat.eqb_spec n 1) as [->|N1]; [|destruct (Nat.eqb_spec n 2) as [->|N2]; [|destruct (Nat.eqb_spec n 4) as [->|N4]; [|destruct (Nat.eqb_spec n 8) as [->|N8]; [|destruct (Nat.eqb_spec n 16) as [->|N16]]]]];
  (destruct k; try (destruct (Nat.eqb_spec (nth 3 b 0) 1)));
  repeat match goal with |- context [?x <=? ?y] => destruct (x <=? y) end;
  (split; [intros s Hs; first [discriminate Hs|injection Hs as <-; split; [reflexivity|]; split; [reflexivity|]; repeat constructor]|
     split; [intros [s Hs]; first [discriminate Hs|split; auto 10]|intros [H1 H2]; first [contradiction|lia|eexists; reflexivity]]]).
Qed.
Print Assumptions C32_default_submesh.
Example C32_default_submesh_ex : default_submesh TpuV4 [4; 4; 8; 1] 8 = Some [1; 1; 8; 1] /\ default_submesh TpuV3 [] 8 = Some [2; 2; 1; 2] /\ default_submesh TpuV4 [4; 4; 8; 2] 8 = None.
Proof. repeat split. Qed.

(** The automatic sub-mesh does not always divide the machine: 8 partitions on a
    TPU v4 slice of 2 x 2 x 2 (8 chips) has no mesh although 8 divides 8. *)
Theorem C32_default_submesh_refuted : exists g (devs local_devs : list (device nat)) s,
  hardware Tpu g [2; 2; 1; 1] devs local_devs /\ prod g = 8 /\ default_submesh TpuV4 g 8 = Some s /\ prod s = 8 /\
  get_mesh Tpu s devs local_devs true = None.
Proof.
  exists [2; 2; 2; 1], (box [2; 2; 2; 1]), (box [2; 2; 1; 1]), [4; 2; 1; 1].
  split; [apply box_hardware; auto; vm_compute; lia|]. repeat split; reflexivity.
Qed.
Print Assumptions C32_default_submesh_refuted.

(** ** GPU meshes *)
(** The shapes cover the local devices and the requested partitions; they cover
    all processes exactly when the number of processes is a multiple of the
    processes per model group, which is not checked. *)
Theorem C32_gpu_shapes : forall n local procs a b c d,
  gpu_shapes n local procs = Some ((a, b), (c, d)) ->
  a * b = local /\ b * d = n /\ (c * d = procs <-> procs mod d = 0) /\ c * d <= procs.
Proof.
  intros n local procs a b c d. unfold gpu_shapes. destruct (Nat.eqb_spec (Nat.min n local) 0) as [|H0]; [discriminate|].
  destruct (Nat.eqb_spec (local mod Nat.min n local) 0) as [H1|]; [|discriminate]. destruct (Nat.eqb_spec (n mod Nat.min n local) 0) as [H2|]; [|discriminate].
  cbn [andb negb]. intros [= <- <- <- <-]. set (m := Nat.min n local) in *.
  assert (E1 := Nat.div_mod local m H0). assert (E2 := Nat.div_mod n m H0).
  assert (Hd : n / m <> 0). { intros Z. rewrite Z in E2. unfold m in *. lia. }
  assert (E3 := Nat.div_mod procs (n / m) Hd).
  split; [lia|]. split; [lia|]. split; [|lia]. split; lia.
Qed.
Print Assumptions C32_gpu_shapes.
Theorem C32_gpu_shapes_refuted : exists n local procs a b c d, gpu_shapes n local procs = Some ((a, b), (c, d)) /\ a * b * (c * d) <> local * procs.
Proof. exists 16, 8, 3. do 4 eexists. split; [reflexivity|]. vm_compute. discriminate. Qed.
Print Assumptions C32_gpu_shapes_refuted.
Example C32_gpu_shapes_ex : gpu_shapes 4 8 2 = Some ((2, 4), (2, 1)) /\ gpu_shapes 16 8 4 = Some ((1, 8), (2, 2)) /\ gpu_shapes 3 8 4 = None.
Proof. repeat split. Qed.

(** ** The expert axis: C33 *)
Theorem C33_largest_divisor : forall fuel data request, (0 < request)%Z -> (Z.to_nat request <= fuel)%nat ->
  exists e, expert_axis fuel data request = Found e /\ (0 < e <= request)%Z /\ (e | data)%Z /\
    forall e', (0 < e' <= request)%Z -> (e' | data)%Z -> (e' <= e)%Z.
Proof.
  induction fuel as [|f IH]; intros data request H Hf; [lia|]. cbn [expert_axis].
  destruct (Z.eqb_spec request 0); [lia|]. destruct (Z.eqb_spec (data mod request) 0) as [E|E].
  - exists request. split; auto. split; [lia|]. split; [now apply Z.mod_divide|]. lia.
  - destruct (Z.eq_dec request 1) as [->|N]; [rewrite Z.mod_1_r in E; lia|].
    destruct (IH data (request - 1)%Z ltac:(lia) ltac:(lia)) as [e [H1 [H2 [H3 H4]]]]. exists e. split; auto. split; [lia|]. split; auto.
    intros e' He Hd. destruct (Z.eq_dec e' request) as [->|]; [|apply H4; auto; lia]. apply Z.mod_divide in Hd; [congruence|lia].
Qed.
Print Assumptions C33_largest_divisor.

(** The mesh: exists for every positive request, same elements in the same order,
    expert axis as above, model axis kept; entry (d, e, k) is the entry
    (d * E + e, k) of the base mesh. *)
Theorem C33_mesh : forall A fuel request (base : arr A) data model,
  shape base = [data; model] -> 0 < data -> 0 < model -> (0 < request)%Z -> Z.to_nat request <= fuel ->
  exists e r, default_moe_mesh fuel request base = Some r /\
    shape r = [data / e; e; model] /\ data = data / e * e /\ (0 < Z.of_nat e <= request)%Z /\
    (forall e', (0 < e' <= request)%Z -> (e' | Z.of_nat data)%Z -> (e' <= Z.of_nat e)%Z) /\
    elements r = elements base /\
    (forall d x k, d < data / e -> x < e -> k < model -> at_ r [d; x; k] = at_ base [d * e + x; k]).
Proof.
  intros A fuel request base data model Hs Hd Hm Hr Hf. unfold default_moe_mesh. rewrite Hs.
  destruct (C33_largest_divisor fuel (Z.of_nat data) request Hr Hf) as [e [-> [H1 [H2 H3]]]].
  destruct (Z.ltb_spec 0 e); [|lia]. set (n := Z.to_nat e). assert (En : Z.of_nat n = e) by (unfold n; lia).
  assert (Hn : 0 < n) by lia.
  assert (Hdiv : data = data / n * n).
  { apply div_ok_mul. split; auto. rewrite <- En in H2. apply Nat.mod_divide; [lia|]. destruct H2 as [q Hq]. exists (Z.to_nat q). nia. }
  assert (Dv : divides (data * model) (n * model) = true).
  { unfold divides. destruct (Nat.eqb_spec (n * model) 0); [nia|]. cbn [negb andb]. apply Nat.eqb_eq. rewrite Hdiv.
    replace (data / n * n * model) with (data / n * (n * model)) by ring. apply Nat.mod_mul. nia. }
  rewrite Dv. assert (Q : data * model / (n * model) = data / n) by (apply Nat.div_mul_cancel_r; lia). rewrite Q.
  unfold reshape. rewrite Hs. replace (prod [data / n; n; model]) with (prod [data; model]) by (unfold prod; cbn [fold_right]; rewrite Hdiv at 1; ring).
  rewrite Nat.eqb_refl. exists n. eexists. split; [reflexivity|]. cbn [shape at_]. split; auto. split; auto. split; [lia|]. split; [rewrite En; auto|]. split.
  - apply (reshape_elements [data / n; n; model]). unfold reshape. rewrite Hs.
    replace (prod [data / n; n; model]) with (prod [data; model]) by (unfold prod; cbn [fold_right]; rewrite Hdiv at 1; ring). now rewrite Nat.eqb_refl.
  - intros d x k K1 K2 K3. f_equal. rewrite <- (unravel_ravel [data; model] [d * n + x; k]).
    + f_equal. unfold ravel, prod. cbn [fold_right]. ring.
    + constructor; [nia|]. constructor; [auto|constructor].
Qed.
Print Assumptions C33_mesh.
Example C33_ex : expert_axis 10 12 5 = Found 4%Z /\ expert_axis 10 12 8 = Found 6%Z /\
  option_map (@shape nat) (default_moe_mesh 10 8 (mk_arr [12; 2] (fun i => ravel [12; 2] i))) = Some [2; 6; 2].
Proof. repeat split. Qed.

(** Requests that are not positive give an exception. *)
Theorem C33_not_positive : forall A fuel request (base : arr A) data model, shape base = [data; model] -> (request <= 0)%Z ->
  default_moe_mesh fuel request base = None.
Proof.
  intros A fuel request base data model Hs H. unfold default_moe_mesh. rewrite Hs.
  assert (X : forall e, expert_axis fuel (Z.of_nat data) request = Found e -> (e < 0)%Z).
  { revert request H. induction fuel as [|f IH]; intros q H e; [discriminate|]. cbn [expert_axis]. destruct (Z.eqb_spec q 0); [discriminate|].
    destruct (_ =? 0)%Z; [intros [= <-]; lia|]. apply IH. lia. }
  destruct (expert_axis fuel (Z.of_nat data) request) as [e| |]; auto. specialize (X e eq_refl). destruct (Z.ltb_spec 0 e); auto; lia.
Qed.
Print Assumptions C33_not_positive.
