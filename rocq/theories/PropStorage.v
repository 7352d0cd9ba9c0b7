(** PropStorage.v -- the packed layout, as seen through storage() and storage_mut(). *)
From Verif Require Import StorageFacts.
Open Scope N_scope.

(** ** C45 *)
(** A valid vector of the right length has elements l exactly if element i is the number
    in the (i mod P)-th group of B bits, from the low end, of block i / P, where B is the
    width of the element type and P = W / B. *)
Theorem C45_layout : forall T (c : cfg) (E : enumlike T), setting c E -> forall B v l, width_of (nv E) B ->
  (holds c E v l <-> valid c E v /\ len v = lenN l /\
     forall i x, l_get l i = Some x ->
     exists b, l_get (storage_blocks v) (i / (W c / B)) = Some b /\ field B b (i mod (W c / B)) = to_d E x).
Proof. intros T c E Hs B v l HB. exact (layout Hs v l HB). Qed.
(** s[w] = b replaces the numbers read at the positions of block w by the groups of B bits
    of b, and nothing else. *)
Theorem C45_write : forall T (c : cfg) (E : enumlike T), setting c E -> forall B v w b, width_of (nv E) B ->
  valid c E v -> w < lenN (storage_blocks v) -> b < 2 ^ W c ->
  exists v', storage_assign w b v = (Ret tt, v') /\ valid c E v' /\ len v' = len v /\
    storage_blocks v' = l_set (storage_blocks v) w b /\ same_allocation v v' /\
    forall i, get_raw c E i v' =
      if (i <? len v) && (i / (W c / B) =? w) then Ret (Some (field B b (i mod (W c / B)))) else get_raw c E i v.
Proof. intros T c E Hs B v w b HB Hv Hw Hb. exact (assign_ok Hs HB Hv Hw Hb). Qed.
Theorem C45_write_oob : forall v w b, lenN (storage_blocks v) <= w -> storage_assign w b v = (Panic PIndex, v).
Proof. exact assign_oob. Qed.
(** Copying the blocks and the length into an empty vector copies the elements. *)
Theorem C45_raw_copy : forall T (c : cfg) (E : enumlike T), setting c E -> forall v l w,
  holds c E v l -> holds c E w [] -> storage_blocks w = [] ->
  result ((storage_extend c (storage_blocks v) ;;; set_len (len v)) w)
    (fun _ w' => holds c E w' l /\ storage_blocks w' = storage_blocks v)
    (fun k w' => k = PCapacity /\ w' = w).
Proof. intros T c E Hs v l w Hv Hw Hn. exact (raw_copy Hs Hv Hw Hn). Qed.

Example C45_example : width_of (nv (fin 5)) 3 /\ storage_blocks (old_vec u32_debug) <> [] /\
  map (fun i => field 3 (hd 0 (storage_blocks (old_vec u32_debug))) i) [0; 1; 2] =
  map (to_d (fin 5)) (firstn 3 old_list) /\
  holds u32_debug (fin 5) (ev_new u32_debug) [] /\ storage_blocks (ev_new u32_debug) = [].
Proof.
  split; [split; vm_compute; [reflexivity|discriminate]|]. split; [vm_compute; discriminate|].
  split; [vm_compute; reflexivity|]. split; [|reflexivity].
  split; [split; [intros b []|vm_compute; repeat split; discriminate]|]. intros i. unfold l_get, get_raw. destruct (N.to_nat i); destruct i; reflexivity.
Qed.
