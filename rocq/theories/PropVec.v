(** PropVec.v -- the properties of EnumVec's element operations.  Every theorem is
    closed by a lemma of ClaimFacts*.v; the Examples beside them show concrete vectors
    that meet the hypotheses ([old_vec]: 12 elements of a 5-variant type behind which lie
    stale elements and dirty unused bits). *)
From Verif Require Import ClaimFacts4.
Open Scope N_scope.

(** ** C02: set / get *)
Theorem C02_get : forall T (c : cfg) (E : enumlike T), setting c E -> forall v l i, holds c E v l ->
  get c E i v = Ret (l_get l i).
Proof. intros T c E Hs v l i H. exact (get_ok Hs i H). Qed.
Theorem C02_set : forall T (c : cfg) (E : enumlike T), setting c E -> forall v l i x, holds c E v l -> i < lenN l ->
  exists v', set c E i x v = (Ret tt, v') /\ len v' = len v /\
    get c E i v' = Ret (Some x) /\ (forall j, j <> i -> get c E j v' = get c E j v) /\
    holds c E v' (l_set l i x).
Proof. intros T c E Hs v l i x H Hi. exact (set_frame Hs x H Hi). Qed.
Theorem C02_set_out_of_range : forall T (c : cfg) (E : enumlike T), setting c E -> forall v l i x, holds c E v l -> lenN l <= i ->
  set c E i x v = (Panic PIndex, v) /\ get c E i v = Ret None.
Proof. intros T c E Hs v l i x H Hi. exact (set_oob_get Hs x H Hi). Qed.
Example C02_example : setting u32_debug (fin 5) /\ holds u32_debug (fin 5) (old_vec u32_debug) old_list /\ 11 < lenN old_list.
Proof. split; [exact s_u32d_5|]. split; [exact old_vec_debug|reflexivity]. Qed.

(** ** C03: push / pop / len *)
Theorem C03_push : forall T (c : cfg) (E : enumlike T), setting c E -> forall v l x, holds c E v l ->
  result (push c E x v)
    (fun _ v' => holds c E v' (l ++ [x]) /\ len v' = len v + 1)
    (grow_fails c E v l).
Proof. intros T c E Hs v l x H. exact (push_len Hs x H). Qed.
(** storage grows (by one block) exactly when the initialised blocks are full; the
    allocation changes, or allocation fails, only when the allocated blocks are full *)
Theorem C03_push_storage : forall T (c : cfg) (E : enumlike T), setting c E -> forall v l x, holds c E v l ->
  result (push c E x v)
    (fun _ v' =>
      vlen (storage v') = (if len v <? EPB c E * vlen (storage v) then vlen (storage v) else vlen (storage v) + 1) /\
      (len v < EPB c E * vcap (storage v) -> same_allocation v v'))
    (fun k v' => len v = capacity c E v).
Proof. intros T c E Hs v l x H. exact (push_storage Hs x H). Qed.
Theorem C03_pop : forall T (c : cfg) (E : enumlike T), setting c E -> forall v l x, holds c E v (l ++ [x]) ->
  exists v', pop c E v = (Ret (Some x), v') /\ holds c E v' l.
Proof. intros T c E Hs v l x H. exact (pop_some Hs H). Qed.
Theorem C03_pop_empty : forall T (c : cfg) (E : enumlike T), setting c E -> forall v, holds c E v [] -> pop c E v = (Ret None, v).
Proof. intros T c E Hs v H. exact (pop_empty Hs H). Qed.
Theorem C03_len : forall T (c : cfg) (E : enumlike T), setting c E -> forall v l, holds c E v l ->
  len v = lenN l /\ (is_empty v = true <-> l = []).
Proof. intros T c E Hs v l H. exact (len_is_empty Hs H). Qed.
Example C03_example : setting small_release (fin 5) /\ holds small_release (fin 5) (old_vec small_release) (firstn 11 old_list ++ [f5 1]) /\
  holds small_release (fin 5) (ev_new small_release) [].
Proof. split; [exact s_small_5|]. split; [exact old_vec_small|exact (proj1 (new_ok s_small_5))]. Qed.

(** ** C06: swap / swap_remove *)
Theorem C06_swap : forall T (c : cfg) (E : enumlike T), setting c E -> forall v l a b, holds c E v l -> a < lenN l -> b < lenN l ->
  exists v', swap c E a b v = (Ret tt, v') /\ holds c E v' (l_swap l a b).
Proof. intros T c E Hs v l a b H Ha Hb. exact (swap_ok Hs H Ha Hb). Qed.
Theorem C06_swap_out_of_range : forall T (c : cfg) (E : enumlike T), setting c E -> forall v l a b, holds c E v l -> lenN l <= a \/ lenN l <= b ->
  swap c E a b v = (Panic PUnwrap, v).
Proof. intros T c E Hs v l a b H Hab. exact (swap_oob Hs H Hab). Qed.
Theorem C06_swap_remove : forall T (c : cfg) (E : enumlike T), setting c E -> forall v l i x, holds c E v l -> l_get l i = Some x ->
  exists v', swap_remove c E i v = (Ret x, v') /\ holds c E v' (l_swap_remove l i).
Proof. intros T c E Hs v l i x H Hi. exact (swap_remove_ok Hs H Hi). Qed.
Theorem C06_swap_remove_out_of_range : forall T (c : cfg) (E : enumlike T), setting c E -> forall v l i, holds c E v l -> lenN l <= i ->
  exists k, swap_remove c E i v = (Panic k, v).
Proof. intros T c E Hs v l i H Hi. exact (swap_remove_oob Hs H Hi). Qed.
(** what the list operations say, pointwise *)
Theorem C06_swap_pointwise : forall T (l : list T) a b j, a < lenN l -> b < lenN l ->
  l_get (l_swap l a b) j = if j =? a then l_get l b else if j =? b then l_get l a else l_get l j.
Proof. intros T l a b j. exact (@l_swap_get T l a b j). Qed.
Theorem C06_swap_remove_pointwise : forall T (l : list T) i j, i < lenN l ->
  lenN (l_swap_remove l i) + 1 = lenN l /\
  (j < lenN l - 1 -> l_get (l_swap_remove l i) j = if j =? i then l_get l (lenN l - 1) else l_get l j).
Proof. intros T l i j. exact (@l_swap_remove_get T l i j). Qed.
Example C06_example : 3 < lenN old_list /\ 11 < lenN old_list /\ l_get old_list 4 = Some (f5 4) /\ lenN old_list <= 12.
Proof. split; [reflexivity|]. split; [reflexivity|]. split; [reflexivity|discriminate]. Qed.

(** ** C07: truncate / clear / resize *)
Theorem C07_truncate : forall T (c : cfg) (E : enumlike T), setting c E -> forall v l n, holds c E v l ->
  exists v', truncate n v = (Ret tt, v') /\ holds c E v' (firstn (N.to_nat n) l).
Proof. intros T c E Hs v l n H. exact (truncate_firstn Hs n H). Qed.
Theorem C07_clear : forall T (c : cfg) (E : enumlike T), setting c E -> forall v l, holds c E v l ->
  exists v', clear v = (Ret tt, v') /\ holds c E v' [].
Proof. intros T c E Hs v l H. exact (clear_nil Hs H). Qed.
Theorem C07_resize : forall T (c : cfg) (E : enumlike T), setting c E -> forall v l n x, holds c E v l -> n <= usize_max c ->
  result (resize c E n x v)
    (fun _ v' => holds c E v' (if lenN l <? n then l ++ repeat x (N.to_nat (n - lenN l)) else firstn (N.to_nat n) l))
    (fun k v' => no_room k /\ exists m, m <= n - lenN l /\ holds c E v' (l ++ repeat x (N.to_nat m))).
Proof. intros T c E Hs v l n x H Hn. exact (resize_ok Hs x H Hn). Qed.
(** both of resize's padding paths return on a concrete vector *)
Example C07_example : fst (resize u32_debug (fin 5) 20 (f5 2) (old_vec u32_debug)) = Ret tt /\
  fst (resize u32_debug (fin 5) 200 (f5 2) (old_vec u32_debug)) = Ret tt /\ 200 <= usize_max u32_debug.
Proof. split; [vm_compute; reflexivity|]. split; [vm_compute; reflexivity|vm_compute; discriminate]. Qed.

(** ** C08: retain *)
Theorem C08_retain : forall T (c : cfg) (E : enumlike T), setting c E ->
  forall St (f : St -> T -> option (bool * St)) st v l, holds c E v l ->
  result_noalloc (retain c E f st v)
    (fun st' v' => exists K, l_retain f st l = (K, Some st') /\ holds c E v' K)
    (fun k v' => k = PUser /\ exists K, l_retain f st l = (K, None) /\ holds c E v' (K ++ skipn (length K) l)).
Proof. intros T c E Hs St f st v l H. exact (retain_ok Hs f st H). Qed.
(** for a pure predicate this is filter *)
Theorem C08_retain_pure : forall T (c : cfg) (E : enumlike T), setting c E -> forall (g : T -> bool) v l, holds c E v l ->
  exists v', retain c E (fun _ x => Some (g x, tt)) tt v = (Ret tt, v') /\ holds c E v' (filter g l).
Proof. intros T c E Hs g v l H. exact (retain_pure Hs g H). Qed.
(** the predicate is called on the elements from the first to the last, once each *)
Theorem C08_retain_calls : forall T (c : cfg) (E : enumlike T), setting c E -> forall (g : list T -> T -> bool) v l, holds c E v l ->
  exists v', retain c E (fun seen x => Some (g seen x, seen ++ [x])) [] v = (Ret l, v').
Proof. intros T c E Hs g v l H. exact (retain_calls Hs g H). Qed.

(** a predicate that panics at the first 4, on a concrete vector *)
Example C08_example :
  fst (retain u32_debug (fin 5) (fun (n : N) x => if to_d (fin 5) x =? 4 then None else Some (to_d (fin 5) x =? 2, n + 1)) 0 (old_vec u32_debug))
    = Panic PUser /\
  fst (retain u32_debug (fin 5) (fun (n : N) x => Some (to_d (fin 5) x =? 2, n + 1)) 0 (old_vec u32_debug)) = Ret 12.
Proof. split; vm_compute; reflexivity. Qed.

(** ** C11: from_elem *)
Theorem C11_from_elem : forall T (c : cfg) (E : enumlike T), setting c E -> forall x n, n <= usize_max c ->
  builds (from_elem c E x n) (fun v => holds c E v (repeat x (N.to_nat n)) /\ len v = n) no_room.
Proof. intros T c E Hs x n Hn. exact (from_elem_len Hs x Hn). Qed.
Example C11_example : exists v, from_elem u32_release (fin 5) (f5 3) 300 = Ret v.
Proof. eexists. vm_compute. reflexivity. Qed.

(** ** C15: round trips *)
Theorem C15_to_vec : forall T (c : cfg) (E : enumlike T), setting c E -> forall v l, holds c E v l -> to_vec c E v = Ret l.
Proof. intros T c E Hs v l H. exact (to_vec_ok Hs H). Qed.
Theorem C15_round_trip : forall T (c : cfg) (E : enumlike T), setting c E -> forall xs, lenN xs <= usize_max c -> reservable c E 0 (lenN xs) ->
  builds (from_slice c E xs) (fun v => to_vec c E v = Ret xs) no_room.
Proof. intros T c E Hs xs H1 H2. exact (round_trip Hs H1 H2). Qed.
(** iterating: repeated next() yields the elements in index order, then None *)
Theorem C15_iter_order : forall T (c : cfg) (E : enumlike T), setting c E -> forall v l, holds c E v l ->
  m_iter c E v (into_iter v) (repeat INext (length l + 1)) = Ret (map (fun x => JItem (Some x)) l ++ [JItem None]).
Proof. intros T c E Hs v l H. exact (iter_in_order Hs H). Qed.
Example C15_example : reservable u32_release (fin 5) 0 (lenN old_list) /\ exists v, from_slice u32_release (fin 5) old_list = Ret v.
Proof. split; [left; vm_compute; discriminate|]. eexists. vm_compute. reflexivity. Qed.

(** ** C16: the double-ended protocol *)
Theorem C16_iter : forall T (c : cfg) (E : enumlike T), setting c E -> forall v l calls, holds c E v l ->
  m_iter c E v (into_iter v) calls = Ret (q_run l calls).
Proof. intros T c E Hs v l calls H. exact (iter_ok Hs calls H). Qed.
(** the specification [q_run] has the protocol's laws: the list divides into a part F
    consumed at the front, a part never consumed, and a part consumed at the back; the
    back calls yielded exactly the latter, from the end; the front calls yielded items of
    F in order (nth skips some) *)
Theorem C16_protocol : forall T (l : list T) calls,
  exists F middle, l = F ++ middle ++ rev (backs calls (q_run l calls)) /\ subseq (fronts calls (q_run l calls)) F.
Proof. intros T l calls. exact (q_run_protocol l calls). Qed.
(** without nth, F is exactly what the front calls yielded *)
Theorem C16_protocol_no_nth : forall T (l : list T) calls, (forall ca, In ca calls -> ca = INext \/ ca = INextBack \/ ca = ISizeHint) ->
  exists middle, l = fronts calls (q_run l calls) ++ middle ++ rev (backs calls (q_run l calls)).
Proof. intros T l calls H. exact (q_run_no_nth l H). Qed.
Theorem C16_fused : forall T (calls : list icall),
  q_run (@nil T) calls = map (fun ca => match ca with ISizeHint | ICount => JNum 0 | _ => JItem None end) calls.
Proof. intros T calls. exact (q_run_nil calls). Qed.

(** ** C17, C18: any, all *)
Theorem C17_any : forall T (c : cfg) (E : enumlike T), setting c E -> forall v l x, holds c E v l ->
  exists b, any c E x v = Ret b /\ (b = true <-> In x l).
Proof. intros T c E Hs v l x H. exact (any_ok Hs x H). Qed.
Theorem C18_all : forall T (c : cfg) (E : enumlike T), setting c E -> forall v l x, holds c E v l ->
  exists b, all c E x v = Ret b /\ (b = true <-> forall y, In y l -> y = x).
Proof. intros T c E Hs v l x H. exact (all_ok Hs x H). Qed.
Example C17_example : any u32_debug (fin 5) (f5 4) (old_vec u32_debug) = Ret true /\
  any u32_debug (fin 5) (f5 2) (snd (truncate 2 (old_vec u32_debug))) = Ret false /\
  all u32_debug (fin 5) (f5 3) (snd (truncate 1 (old_vec u32_debug))) = Ret true.
Proof. split; [vm_compute; reflexivity|]. split; vm_compute; reflexivity. Qed.

(** ** C19, C20: equality and hash *)
Theorem C19_eq : forall T (c : cfg) (E : enumlike T), setting c E -> forall v w l m, holds c E v l -> holds c E w m ->
  exists b, eq c E v w = Ret b /\ (b = true <-> l = m).
Proof. intros T c E Hs v w l m H1 H2. exact (eq_ok Hs H1 H2). Qed.
Theorem C20_hash : forall T (c : cfg) (E : enumlike T), setting c E -> forall v l, holds c E v l -> hash c E v = Ret (map (to_d E) l).
Proof. intros T c E Hs v l H. exact (hash_ok Hs H). Qed.
Theorem C20_eq_hash : forall T (c : cfg) (E : enumlike T), setting c E -> forall v w l m, holds c E v l -> holds c E w m ->
  eq c E v w = Ret true -> hash c E v = hash c E w.
Proof. intros T c E Hs v w l m H1 H2 He. exact (eq_hash Hs H1 H2 He). Qed.
Example C19_example : exists w, holds u32_debug (fin 5) w old_list /\ storage w <> storage (old_vec u32_debug) /\
  eq u32_debug (fin 5) w (old_vec u32_debug) = Ret true.
Proof. exact eq_with_stale. Qed.

(** ** C25: capacity, with_capacity, shrink_to_fit *)
Theorem C25_new : forall T (c : cfg) (E : enumlike T), setting c E -> holds c E (ev_new c) [].
Proof. intros T c E Hs. exact (proj1 (new_ok Hs)). Qed.
(** missing: where the bits of an allocation can exceed usize::MAX (32-bit targets), numbers
    of elements in the last incomplete block below it *)
Theorem C25_with_capacity_partial : forall T (c : cfg) (E : enumlike T), setting c E -> forall n, n <= usize_max c ->
  builds (with_capacity c E n) (fun v => holds c E v [] /\ (roomy c \/ countable c E n -> n <= capacity c E v)) (fun k => k = PCapacity).
Proof. intros T c E Hs n Hn. exact (with_capacity_room Hs Hn). Qed.
Theorem C25_capacity : forall T (c : cfg) (E : enumlike T), setting c E -> forall v, valid c E v ->
  len v <= capacity c E v /\ capacity c E v = N.min (vcap (storage v) * EPB c E) (usize_max c) /\
  (roomy c -> capacity c E v = EPB c E * vcap (storage v)).
Proof. intros T c E Hs v Hv. exact (conj (valid_capacity Hs Hv) (conj eq_refl (fun Hr => capacity_blocks Hs Hr Hv))). Qed.
(** (the vectors left out here are those of C41) *)
Theorem C25_shrink_to_fit_partial : forall T (c : cfg) (E : enumlike T), setting c E -> forall v l, holds c E v l -> countable c E (lenN l) ->
  exists v', shrink_to_fit c E v = (Ret tt, v') /\ holds c E v' l /\
    vlen (storage v') = (lenN l + (EPB c E - 1)) / EPB c E /\
    vcap (storage v') = shrink c (vcap (storage v)) (vlen (storage v')).
Proof. intros T c E Hs v l H Hn. exact (shrink_exact Hs Hn H). Qed.
Example C25_example : match with_capacity u32_release (fin 5) 100 with Ret v => capacity u32_release (fin 5) v =? 100 | _ => false end = true.
Proof. vm_compute. reflexivity. Qed.

(** ** C28: for_each *)
Theorem C28_for_each : forall T (c : cfg) (E : enumlike T), setting c E ->
  forall St (f : St -> T -> option (T * St)) st v l, holds c E v l ->
  result_noalloc (for_each c E f st v)
    (fun st' v' => exists K, l_map f st l = (K, Some st') /\ holds c E v' K)
    (fun k v' => k = PUser /\ exists K, l_map f st l = (K, None) /\ holds c E v' (K ++ skipn (length K) l)).
Proof. intros T c E Hs St f st v l H. exact (for_each_ok Hs f st H). Qed.
Theorem C28_for_each_pure : forall T (c : cfg) (E : enumlike T), setting c E -> forall (g : T -> T) v l, holds c E v l ->
  exists v', for_each c E (fun _ x => Some (g x, tt)) tt v = (Ret tt, v') /\ holds c E v' (map g l).
Proof. intros T c E Hs g v l H. exact (for_each_pure Hs g H). Qed.

Example C28_example :
  fst (for_each u32_debug (fin 5) (fun (n : N) x => if to_d (fin 5) x =? 4 then None else Some (f5 0, n + 1)) 0 (old_vec u32_debug)) = Panic PUser /\
  fst (for_each u32_debug (fin 5) (fun (n : N) x => Some (f5 (n mod 5), n + 1)) 0 (old_vec u32_debug)) = Ret 12.
Proof. split; vm_compute; reflexivity. Qed.

(** ** C40: the unsafe raw accessors, below the initialised storage *)
Theorem C40_raw_write : forall T (c : cfg) (E : enumlike T), setting c E -> forall v i d, valid c E v ->
  i < EPB c E * vlen (storage v) -> d < 2 ^ BITS E ->
  exists v', set_raw_unchecked c E i d v = (Ret tt, v') /\ valid c E v' /\ len v' = len v /\
    vlen (storage v') = vlen (storage v) /\
    forall j, j < EPB c E * vlen (storage v) -> get_raw_unchecked c E j v' = if j =? i then Ret d else get_raw_unchecked c E j v.
Proof. intros T c E Hs v i d Hv Hi Hd. exact (raw_write Hs Hv Hi Hd). Qed.
Theorem C40_set_len : forall T (c : cfg) (E : enumlike T), setting c E -> forall v n, valid c E v -> n <= usize_max c -> n <= EPB c E * vlen (storage v) ->
  exists v', set_len n v = (Ret tt, v') /\ valid c E v' /\
    forall i, get_raw c E i v' = if i <? n then (let! d := get_raw_unchecked c E i v in Ret (Some d)) else Ret None.
Proof. intros T c E Hs v n Hv Hu Hn. exact (set_len_raw Hs Hv Hn Hu). Qed.
(** reserve(1); set_raw_unchecked(len, d); set_len(len + 1) is push *)
Theorem C40_manual_push : forall T (c : cfg) (E : enumlike T), setting c E -> forall v l x, holds c E v l -> reservable c E (lenN l) 1 ->
  result ((reserve c E 1 ;;; set_raw_unchecked c E (lenN l) (to_d E x) ;;; set_len (lenN l + 1)) v)
    (fun _ v' => holds c E v' (l ++ [x]))
    (fun k v' => no_room k /\ v' = v).
Proof. intros T c E Hs v l x H Hr. exact (manual_push Hs x H Hr). Qed.
Example C40_example : valid u32_debug (fin 5) (old_vec u32_debug) /\ 25 < EPB u32_debug (fin 5) * vlen (storage (old_vec u32_debug)) /\
  len (old_vec u32_debug) = 12.
Proof. split; [exact (proj1 old_vec_debug)|]. split; vm_compute; reflexivity. Qed.
