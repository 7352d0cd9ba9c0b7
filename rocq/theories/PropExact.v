(** PropExact.v -- what insert and remove do on the inputs that the _partial theorems of
    PropShift.v leave out: together they describe every call. *)
From Verif Require Import EdgeFacts ProgFacts ExactClaims ExtendExact WideFacts.
Open Scope N_scope.

(** ** C04: insert when an element is as wide as a block (BITS = W) *)
(** A debug build always panics, after appending x.  A release build gives at each position
    the bitwise or of what should be there and what l ++ [x] has there. *)
Theorem C04_insert_wide : forall T (c : cfg) (E : enumlike T), setting c E -> W c <= BITS E ->
  forall v l i x, holds c E v l -> i <= lenN l ->
  result (insert c E i x v)
    (fun _ v' => ovf c = false /\ valid c E v' /\ len v' = lenN l + 1 /\
       forall j y z, l_get (l ++ [x]) j = Some y -> l_get (l_insert l i x) j = Some z ->
         get_raw c E j v' = Ret (Some (N.lor (to_d E y) (to_d E z))))
    (fun k v' => grow_fails c E v l k v' \/ (k = POverflow /\ ovf c = true /\ holds c E v' (l ++ [x]))).
Proof. intros T c E Hs Hw v l i x H Hi. exact (insert_wide Hs x Hw H Hi). Qed.
Example C04_wide_example : W u8_release <= BITS (fin 256) /\ holds u8_release (fin 256) (wide_vec u8_release) wide_list /\
  fst (insert u8_release (fin 256) 1 (f256 5) (wide_vec u8_release)) = Ret tt /\
  to_vec u8_release (fin 256) (snd (insert u8_release (fin 256) 1 (f256 5) (wide_vec u8_release))) =
    Ret (map f256 [N.lor 7 7; N.lor 200 5; N.lor 9 200; N.lor 5 9]).
Proof. split; [vm_compute; discriminate|]. split; [exact wide_release|]. split; vm_compute; reflexivity. Qed.

(** ** C05: remove on any vector, whatever its unused bits *)
(** With P elements per block, the last element of every block after the one removed from
    is or-ed with the unused bits the block had; every other element is right.  So the
    result is right exactly if those bits change nothing. *)
Theorem C05_remove_exact : forall T (c : cfg) (E : enumlike T), setting c E -> BITS E < W c ->
  forall v l i x, holds c E v l -> countable c E (i + 1) -> l_get l i = Some x ->
  exists v', remove c E i v = (Ret x, v') /\ valid c E v' /\ len v' + 1 = lenN l /\
    (forall j y b, l_get (l_remove l i) j = Some y -> l_get (storage_blocks v) (j / EPB c E) = Some b ->
       get_raw c E j v' =
         Ret (Some (if (j mod EPB c E =? EPB c E - 1) && (i / EPB c E <? j / EPB c E)
                    then N.lor (to_d E y) (b / 2 ^ (EPB c E * BITS E)) else to_d E y))) /\
    (holds c E v' (l_remove l i) <->
     forall j y b, l_get (l_remove l i) j = Some y -> l_get (storage_blocks v) (j / EPB c E) = Some b ->
       j mod EPB c E = EPB c E - 1 -> i / EPB c E < j / EPB c E ->
       N.lor (to_d E y) (b / 2 ^ (EPB c E * BITS E)) = to_d E y).
Proof. intros T c E Hs Hw v l i x H Hn Hx. exact (remove_exact Hs Hn Hw H Hx). Qed.
(** elements as wide as a block: right if at most one element follows (C05_remove_partial);
    otherwise a debug build always panics, and a release build ors each element after the
    removed one with its old value *)
Theorem C05_remove_wide : forall T (c : cfg) (E : enumlike T), setting c E -> W c <= BITS E ->
  forall v l i x, holds c E v l -> l_get l i = Some x -> i + 2 < lenN l ->
  result_noalloc (remove c E i v)
    (fun r v' => r = x /\ ovf c = false /\ valid c E v' /\ len v' + 1 = lenN l /\
       forall j y z, l_get l j = Some y -> l_get (l_remove l i) j = Some z ->
         get_raw c E j v' = Ret (Some (if j <=? i then to_d E z else N.lor (to_d E y) (to_d E z))))
    (fun k v' => k = POverflow /\ ovf c = true /\ exists y, l_get l (i + 1) = Some y /\
                 holds c E v' (firstn (N.to_nat (lenN l - 1)) (l_set l i y))).
Proof. intros T c E Hs Hw v l i x H Hx Hi. exact (remove_wide Hs Hw H Hx Hi). Qed.
(** a vector with dirty unused bits where element 19 goes wrong *)
Example C05_exact_example : BITS (fin 8) < W u32_release /\ holds u32_release (fin 8) dirty8 dirty8_list /\ countable u32_release (fin 8) (0 + 1) /\
  l_get dirty8_list 0 = Some (f8 7) /\ l_get (l_remove dirty8_list 0) 19 = Some (f8 0) /\
  (exists b, l_get (storage_blocks dirty8) 1 = Some b /\ 0 < b / 2 ^ (EPB u32_release (fin 8) * BITS (fin 8))) /\
  0 + 2 < lenN wide_list /\ l_get wide_list 0 = Some (f256 7).
Proof.
  split; [reflexivity|]. split; [exact dirty8_holds|]. split; [vm_compute; discriminate|]. split; [reflexivity|]. split; [reflexivity|].
  split; [eexists; split; [vm_compute; reflexivity|vm_compute; reflexivity]|]. split; reflexivity.
Qed.

(** ** C14: which stale elements extend exposes *)
(** An iterator that promises more items than it yields: extend always panics; unless it
    fails to allocate (nothing changes then), the elements after the yielded ones are what
    the storage happened to contain at their places, and 0 where it had no block. *)
Theorem C14_extend_exact : forall T (c : cfg) (E : enumlike T), setting c E -> forall v l it, holds c E v l ->
  lenN l + lower it <= usize_max c -> reservable c E (lenN l) (lower it) -> lenN (items it) < lower it ->
  result (extend c E it v) (fun _ _ => False)
    (fun k v' => (k = PCapacity /\ v' = v) \/
       (k = (if ends_in_panic it then PUser else PUnwrap) /\ valid c E v' /\ len v' = lenN l + lower it /\
        forall j, j < lenN l + lower it -> get_raw c E j v' = Ret (Some
          match l_get (l ++ items it) j with
          | Some x => to_d E x
          | None => match l_get (storage_blocks v) (j / EPB c E) with
                    | Some b => field (BITS E) b (j mod EPB c E)
                    | None => 0
                    end
          end))).
Proof. intros T c E Hs v l it H H1 H2 H3. exact (extend_stale Hs H H1 H2 H3). Qed.
(** elements that had been removed from [old_vec] come back *)
Example C14_exact_example : let it := mkIter [f5 1; f5 2] 7 true in
  holds u32_debug (fin 5) (old_vec u32_debug) old_list /\ lenN old_list + lower it <= usize_max u32_debug /\
  reservable u32_debug (fin 5) (lenN old_list) (lower it) /\ lenN (items it) < lower it /\
  fst (extend u32_debug (fin 5) it (old_vec u32_debug)) = Panic PUser /\
  map (fun j => get_raw u32_debug (fin 5) j (snd (extend u32_debug (fin 5) it (old_vec u32_debug)))) [12; 13; 14; 15; 16; 17; 18; 19]
    = [Ret (Some 1); Ret (Some 2); Ret (Some 4); Ret (Some 0); Ret (Some 1); Ret (Some 2); Ret (Some 3); Ret None].
Proof.
  cbv zeta. split; [exact old_vec_debug|]. split; [vm_compute; discriminate|]. split; [left; vm_compute; discriminate|].
  split; [reflexivity|]. split; vm_compute; reflexivity.
Qed.

(** ** C27: exactly when reserve and extend reallocate *)
(** reserve(k) keeps the allocation if len + k is below capacity() and otherwise, even if
    the two are equal, makes it larger (or fails, changing nothing) *)
Theorem C27_reserve_exact : forall T (c : cfg) (E : enumlike T), setting c E -> forall v l k, holds c E v l ->
  reservable c E (lenN l) k ->
  result (reserve c E k v)
    (fun _ v' => holds c E v' l /\ (lenN l + k < capacity c E v -> same_allocation v v') /\
                 (capacity c E v <= lenN l + k -> lenN l + k < usize_max c -> capacity c E v < capacity c E v'))
    (fun q v' => no_room q /\ v' = v /\ capacity c E v <= lenN l + k).
Proof. intros T c E Hs v l k H Hr. exact (reserve_when Hs H Hr). Qed.
(** the same for extend with an iterator that tells its length *)
Theorem C27_extend_exact : forall T (c : cfg) (E : enumlike T), setting c E -> forall v l xs, holds c E v l ->
  reservable c E (lenN l) (lenN xs) ->
  result (extend c E (exact_iter xs) v)
    (fun _ v' => holds c E v' (l ++ xs) /\ (lenN l + lenN xs < capacity c E v -> same_allocation v v') /\
                 (capacity c E v <= lenN l + lenN xs -> lenN l + lenN xs < usize_max c -> capacity c E v < capacity c E v'))
    (fun q v' => no_room q /\ v' = v /\ capacity c E v <= lenN l + lenN xs).
Proof. intros T c E Hs v l xs H Hr. exact (extend_when Hs H Hr). Qed.
(** even extending an empty vector with nothing allocates *)
Example C27_exact_example : holds u32_debug (fin 5) (ev_new u32_debug) [] /\ capacity u32_debug (fin 5) (ev_new u32_debug) = 0 /\
  reservable u32_debug (fin 5) 0 0 /\ fst (extend u32_debug (fin 5) (exact_iter []) (ev_new u32_debug)) = Ret tt /\
  capacity u32_debug (fin 5) (snd (extend u32_debug (fin 5) (exact_iter []) (ev_new u32_debug))) = 10.
Proof.
  split; [exact (proj1 (new_ok s_u32d_5))|]. split; [reflexivity|]. split; [left; vm_compute; discriminate|]. split; vm_compute; reflexivity.
Qed.

(** ** C40: writing a number of any size with set_raw_unchecked *)
(** The bits that do not fit are or-ed into the following elements of the same block. *)
Theorem C40_raw_write_any : forall T (c : cfg) (E : enumlike T), cfg_ok c -> compiles c E = true -> forall v i d, valid c E v ->
  i < EPB c E * vlen (storage v) ->
  exists v', set_raw_unchecked c E i d v = (Ret tt, v') /\ valid c E v' /\ len v' = len v /\ vlen (storage v') = vlen (storage v) /\
  forall j old, j < EPB c E * vlen (storage v) -> get_raw_unchecked c E j v = Ret old ->
    get_raw_unchecked c E j v' = Ret
      (if (j / EPB c E =? i / EPB c E) && (i <=? j)
       then N.lor (if j =? i then 0 else old) ((d / 2 ^ ((j - i) * BITS E)) mod 2 ^ BITS E)
       else old).
Proof. intros T c E Hc Hp v i d Hv Hi. exact (raw_write_any Hc Hp d Hv Hi). Qed.
Example C40_any_example : map (fun j => get_raw_unchecked u32_debug (fin 5) j (snd (set_raw_unchecked u32_debug (fin 5) 0 (4 + 8 * 6) (old_vec u32_debug)))) [0; 1; 2]
  = [Ret 4; Ret (N.lor 1 6); Ret 2] /\ map (fun j => get_raw_unchecked u32_debug (fin 5) j (old_vec u32_debug)) [0; 1; 2] = [Ret 3; Ret 1; Ret 2].
Proof. split; vm_compute; reflexivity. Qed.

(** ** C29: what happens to types with more than 2^32 values in the storages that accept them *)
(** set(i, x) writes the number of x modulo 2^32, and ors what is above into the next element
    of the same block *)
Theorem C29_set_exact : forall T (c : cfg) (E : enumlike T), cfg_ok c -> compiles c E = true -> 2 ^ 32 < nv E -> nv E <= usize_max c ->
  lawful E -> forall v i x, valid c E v -> i < len v ->
  exists v', set c E i x v = (Ret tt, v') /\ valid c E v' /\ len v' = len v /\
  forall j old, get_raw c E j v = Ret (Some old) -> get_raw c E j v' = Ret (Some
    (if j =? i then to_d E x mod 2 ^ 32
     else if (j =? i + 1) && (j / EPB c E =? i / EPB c E) then N.lor old (to_d E x / 2 ^ 32)
     else old)).
Proof. intros T c E Hc Hp Hw Hf Hl v i x Hv Hi. exact (set_wide Hc Hp Hw Hf (proj1 Hl) x Hv Hi). Qed.
(** push(x) appends the number of x modulo 2^32 *)
Theorem C29_push_exact : forall T (c : cfg) (E : enumlike T), cfg_ok c -> roomy c -> compiles c E = true -> 2 ^ 32 < nv E -> nv E <= usize_max c ->
  lawful E -> forall v x, valid c E v ->
  result (push c E x v)
    (fun _ v' => valid c E v' /\ len v' = len v + 1 /\ get_raw c E (len v) v' = Ret (Some (to_d E x mod 2 ^ 32)) /\
       forall j, j < len v -> get_raw c E j v' = get_raw c E j v)
    (fun k v' => k = PCapacity /\ v' = v).
Proof. intros T c E Hc Hr Hp Hw Hf Hl v x Hv. exact (push_wide Hc Hp Hw Hf (proj1 Hl) x Hr Hv). Qed.
(** so a pushed or set value is read back exactly if its number is below 2^32 *)
Theorem C29_reads_back_iff : forall T (c : cfg) (E : enumlike T), cfg_ok c -> roomy c -> compiles c E = true -> 2 ^ 32 < nv E -> nv E <= usize_max c ->
  lawful E -> (forall n y, from_d E n = Some y -> to_d E y = n) ->
  forall v x, valid c E v ->
  (forall v', push c E x v = (Ret tt, v') -> get c E (len v) v' = Ret (Some x) <-> to_d E x < 2 ^ 32) /\
  (forall v' i, i < len v -> set c E i x v = (Ret tt, v') -> get c E i v' = Ret (Some x) <-> to_d E x < 2 ^ 32).
Proof.
  intros T c E Hc Hr Hp Hw Hf Hl Hi v x Hv.
  assert (G : forall i v', get_raw c E i v' = Ret (Some (to_d E x mod 2 ^ 32)) -> get c E i v' = Ret (Some x) <-> to_d E x < 2 ^ 32).
  { intros i v' Hg. unfold get. rewrite Hg. cbn [obind]. unfold from_discr. split.
    - destruct (from_d E (to_d E x mod 2 ^ 32)) as [y|] eqn:Ey; [|discriminate]. intros H. injection H as ->.
      rewrite (Hi _ _ Ey). apply N.mod_lt. discriminate.
    - intros H. rewrite N.mod_small by exact H. rewrite (proj2 Hl x). reflexivity. }
  split.
  - intros v' Hpush. pose proof (C29_push_exact T c E Hc Hr Hp Hw Hf Hl v x Hv) as H. rewrite Hpush in H. apply G. apply H.
  - intros v' i Hi' Hset. destruct (C29_set_exact T c E Hc Hp Hw Hf Hl v i x Hv Hi') as [v2 [E2 [_ [L2 G2]]]]. rewrite Hset in E2. injection E2 as <-.
    destruct (raw_write_any Hc Hp 0 Hv (i := i)) as [v3 _]; [destruct Hv as [_ [Hcov _]]; eapply N.lt_le_trans; eassumption|].
    apply WF_valid in Hv. pose proof (G2 i _ (get_raw_in Hc Hp Hv Hi')) as H. rewrite N.eqb_refl in H. apply G. exact H.
Qed.
(** [5, 6] of a type with 2^33 values in the u64 storage: set(0, 2^32 + 9) turns it into [9, 7] *)
Example C29_exact_example :
  let c := u64_release in let E := fin (2 ^ 33) in
  let v := snd (push c E (fv (2 ^ 33) 6 eq_refl) (snd (push c E (fv (2 ^ 33) 5 eq_refl) (ev_new c)))) in
  cfg_ok c /\ roomy c /\ compiles c E = true /\ 2 ^ 32 < nv E /\ nv E <= usize_max c /\ lawful E /\ valid c E v /\ len v = 2 /\
  (forall n y, from_d E n = Some y -> to_d E y = n) /\
  map (fun j => get_raw c E j (snd (set c E 0 (fv (2 ^ 33) (2 ^ 32 + 9) eq_refl) v))) [0; 1] = [Ret (Some 9); Ret (Some 7)].
Proof.
  cbv zeta. split; [apply u64_release_ok|]. split; [apply u64_release_ok|]. split; [reflexivity|]. split; [reflexivity|]. split; [vm_compute; discriminate|].
  split; [apply fin_lawful|]. split.
  - split; [|split; [|split; [|split]]]; [|vm_compute; discriminate..]. intros b Hb. vm_compute in Hb. destruct Hb as [<- |[]]. reflexivity.
  - split; [reflexivity|]. split; [|vm_compute; reflexivity]. intros n y. cbn. unfold mkFin.
    assert (G : forall b (e : (n <? 2 ^ 33) = b), (if b as b return ((n <? 2 ^ 33) = b -> option (Fin (2 ^ 33)))
       then fun H => Some (exist _ n H) else fun _ => None) e = Some y -> proj1_sig y = n).
    { intros [|] e Hb; [|discriminate]. injection Hb as <-. reflexivity. }
    apply G.
Qed.

(** ** C13, C14: the iterators the _partial theorems leave out *)
(** One element per block and a promise that reaches usize::MAX: extend fails before it does
    anything, except in the corner of C13_extend_corner_refuted (a release build, exactly usize::MAX). *)
Theorem C13_extend_too_long : forall T (c : cfg) (E : enumlike T), setting c E -> forall v l it, holds c E v l ->
  EPB c E = 1 -> usize_max c <= lenN l + lower it -> (lenN l + lower it = usize_max c -> ovf c = true) ->
  extend c E it v = (Panic (if lenN l + lower it =? usize_max c then POverflow else PExpect), v).
Proof.
  intros T c E Hs v l it H HP Hu Ho. pose proof (holds_len Hs H) as Hn.
  assert (Hr : reserve c E (lower it) v = (Panic (if lenN l + lower it =? usize_max c then POverflow else PExpect), v)).
  { unfold reserve, bind, reads, lift. cbv beta iota. rewrite Hn.
    destruct (N.eqb_spec (lenN l + lower it) (usize_max c)) as [He|He].
    - rewrite He, N.leb_refl. cbv beta iota. rewrite HP, N.div_1_r. unfold uadd. rewrite (Ho He).
      rewrite (proj2 (N.leb_gt _ _)) by apply N.lt_add_pos_r, N.lt_0_1. reflexivity.
    - rewrite (proj2 (N.leb_gt _ _)) by (apply N.le_neq; split; [exact Hu|congruence]). reflexivity. }
  unfold extend, bind, reads. cbv beta iota. rewrite Hr. reflexivity.
Qed.
(** An iterator that yields more items than the allocator can ever hold (an endless one:
    take a long enough prefix) never lets extend return; it fails for lack of memory and the
    vector then holds a prefix of what was yielded. *)
Theorem C13_endless : forall T (c : cfg) (E : enumlike T), setting c E -> forall v l it, holds c E v l ->
  lower it <= lenN (items it) -> lower it <= usize_max c -> reservable c E (lenN l) (lower it) ->
  N.min (EPB c E * alloc_max c) (usize_max c) < lenN l + lenN (items it) ->
  result (extend c E it v) (fun _ _ => False)
    (fun k v' => (no_room k /\ exists l1 l2, items it = l1 ++ l2 /\ holds c E v' (l ++ l1))).
Proof.
  intros T c E Hs v l it H H1 H2 H3 H4. pose proof (extend_ok Hs H H1 H2 H3) as G.
  assert (N0 : forall v', ~ holds c E v' (l ++ items it)).
  { intros v' Hv. pose proof (holds_len Hs Hv) as Hn. destruct Hv as [[_ [A1 [A2 [A3 A4]]]] _]. rewrite Hn, lenN_app in A1, A4.
    apply (N.lt_irrefl (N.min (EPB c E * alloc_max c) (usize_max c))). eapply N.lt_le_trans; [exact H4|]. apply N.min_glb; [|exact A4].
    etransitivity; [exact A1|]. apply N.mul_le_mono_l. etransitivity; eassumption. }
  destruct (extend c E it v) as [[a|k| |] v']; cbn in *; auto.
  - exact (N0 _ (proj2 G)).
  - destruct G as [G|[_ [_ G]]]; [exact G|]. destruct (N0 _ G).
Qed.
(** a machine with room for 2 blocks; 100 ones *)
Example C13_endless_example : let c := std_cfg 32 64 true false 2 in let it := mkIter (repeat (f5 1) 100) 0 false in
  setting c (fin 5) /\ holds c (fin 5) (ev_new c) [] /\ N.min (EPB c (fin 5) * alloc_max c) (usize_max c) < 0 + lenN (items it) /\
  fst (extend c (fin 5) it (ev_new c)) = Abort /\ EPB u8_debug (fin 256) = 1.
Proof.
  assert (Hs : setting (std_cfg 32 64 true false 2) (fin 5)).
  { split; [apply std_cfg_ok; cbn; auto; discriminate|]. split; [vm_compute; discriminate|]. split; [split; [reflexivity|vm_compute; discriminate]|apply fin_lawful]. }
  cbv zeta. split; [exact Hs|]. split; [exact (proj1 (new_ok Hs))|]. split; [reflexivity|]. split; vm_compute; reflexivity.
Qed.

(** ** C41: shrink_to_fit with no assumption on the allocator *)
(** With P elements per block, it keeps the elements exactly if len() <= P * (usize::MAX / P);
    otherwise the length stays and reading any element from there on is undefined behaviour. *)
Theorem C41_shrink_exact : forall T (c : cfg) (E : enumlike T), cfg_ok c -> compiles c E = true -> forall v l, holds c E v l ->
  exists v', shrink_to_fit c E v = (Ret tt, v') /\ len v' = lenN l /\
    (holds c E v' l <-> lenN l <= EPB c E * (usize_max c / EPB c E)) /\
    forall i, i < lenN l ->
      get_raw c E i v' = if i <? EPB c E * (usize_max c / EPB c E) then Ret (option_map (to_d E) (l_get l i)) else UB.
Proof. intros T c E Hc Hp v l H. exact (shrink_limit Hc Hp H). Qed.
(** on a 32-bit target with one-bit elements the limit is 2^32 - 32, and vectors can be longer (C41_program_refuted) *)
Example C41_exact_example : EPB cfg32 (fin 2) * (usize_max cfg32 / EPB cfg32 (fin 2)) = 2 ^ 32 - 32 /\ cfg_ok cfg32 /\ compiles cfg32 (fin 2) = true /\
  holds cfg32 (fin 2) (full_vec (repeat 0 (N.to_nat (2 ^ 27)))) (repeat f2 (N.to_nat (2 ^ 32 - 1))) /\
  holds u32_debug (fin 5) (old_vec u32_debug) old_list.
Proof.
  split; [vm_compute; reflexivity|]. split; [exact cfg32_ok|]. split; [reflexivity|]. split; [exact full_vec_holds|exact old_vec_debug].
Qed.
