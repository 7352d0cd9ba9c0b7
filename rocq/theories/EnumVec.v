(** EnumVec.v -- model of enum_vec/src/vec_u32/mod.rs.

    Line numbers below are those of enum_vec/src/vec_u32/mod.rs ("mod.rs").  The files
    vec_u8, vec_u16, vec_u64, vec_u128 are generated from it by enum_vec/gen.sh and
    differ only in the block type/size (lines 9, 11) and, for u64/u128, in the
    ERROR_TOO_MANY_VARIANTS check being commented out (lines 68, 71).
    smallvec_u32/mod.rs differs in the storage type (line 11) and in [append]
    (lines 399-400).  Model only: no proofs in this file. *)
From Verif Require Export RVec Trait.
Open Scope N_scope.
Set Implicit Arguments.

(** mod.rs:14-25.  [storage]: see RVec.v; [num]: num_elements; PhantomData dropped. *)
Record ev := mkEv { storage : rvec; num : N }.

(** A user iterator given to [extend], as seen by its consumer: the items it
    yields, the lower bound of its size_hint (queried once, before iteration), and
    whether after the items [next] panics instead of returning None.
    Simplification: finite, and size_hint/next have no effect on the EnumVec
    (Rust's borrow rules exclude it). *)
Record iter (T : Type) := mkIter { items : list T; lower : N; ends_in_panic : bool }.

(** Iterator state of EnumVecIter / EnumVecIntoIter: Range<usize> (mod.rs:1006-1009, 1047-1050). *)
Record range := mkRange { r_start : N; r_end : N }.

Section EnumVec.
  Context {T : Type} (c : cfg) (E : enumlike T).

  (** mod.rs:36-67 BITS_PER_ELEM: the sum of (NUM_VARIANTS > (1 << k)) for k = 0..31.
      The two ERROR_ terms are 0 when the type compiles, see [compiles]. *)
  Definition BITS : N :=
    fold_right N.add 0
      (map (fun k => if 2 ^ N.of_nat k <? nv E then 1 else 0) (seq 0 32)).

  (** mod.rs:71, 74-76: the constants underflow (compile error) unless there are
      at least 2 variants and, in the storages where the check is not commented
      out (vec_u64:68, vec_u128:68), at most 2^W. *)
  Definition compiles : bool :=
    (1 <? nv E) && ((64 <=? W c) || (nv E <=? 2 ^ W c)).

  (** mod.rs:81 *)
  Definition EPB : N := W c / BITS.
  (** mod.rs:83: ((1u64 << BITS) - 1) as StorageBlock; BITS <= 32 so the u64 shift is exact. *)
  Definition MASK : N := cast_block c (2 ^ BITS - 1).

  (** mod.rs:597-602.  Simplification: (i % E) * BITS cannot overflow usize (it is < W). *)
  Definition block_index (i : N) : N * N := (i / EPB, (i mod EPB) * BITS).

  (** mod.rs:604-606 *)
  Definition blocks_for_elements (n : N) : N :=
    N.min (n + (EPB - 1)) (usize_max c) / EPB.

  (** mod.rs:84-86, 896-904 *)
  Definition ev_new : ev := mkEv (vec_new c) 0.

  (** mod.rs:87-93 *)
  Definition with_capacity (n : N) : outcome ev :=
    let! s := vec_with_capacity c (blocks_for_elements n) in Ret (mkEv s 0).

  (** mod.rs:103-107 *)
  Definition capacity (v : ev) : N := N.min (vcap (storage v) * EPB) (usize_max c).

  (** mod.rs:434-436, 440-442 *)
  Definition len (v : ev) : N := num v.
  Definition is_empty (v : ev) : bool := len v =? 0.

  (** mod.rs:437-439 (unsafe) *)
  Definition set_len (n : N) : M ev unit := fun v => (Ret tt, mkEv (storage v) n).

  (** Run a storage operation on self.storage; on failure the storage is unchanged
      (Vec reports capacity overflow before touching its contents). *)
  Definition on_storage (f : rvec -> outcome rvec) : M ev unit := fun v =>
    match f (storage v) with
    | Ret s => (Ret tt, mkEv s (num v))
    | Panic k => (Panic k, v)
    | Abort => (Abort, v)
    | UB => (UB, v)
    end.

  (** storage.get_unchecked / get_unchecked_mut *)
  Definition load_unchecked (w : N) (v : ev) : outcome N :=
    match nthN (data (storage v)) w with Some b => Ret b | None => UB end.
  Definition store_unchecked (w b : N) : M ev unit := fun v =>
    if w <? vlen (storage v)
    then (Ret tt, mkEv (mkRvec (updN (data (storage v)) w b) (vcap (storage v))) (num v))
    else (UB, v).
  (** self.storage[w] *)
  Definition load (w : N) (v : ev) : outcome N :=
    match nthN (data (storage v)) w with Some b => Ret b | None => Panic PIndex end.
  Definition store (w b : N) : M ev unit := fun v =>
    if w <? vlen (storage v)
    then (Ret tt, mkEv (mkRvec (updN (data (storage v)) w b) (vcap (storage v))) (num v))
    else (Panic PIndex, v).

  (** mod.rs:538-544 (unsafe) *)
  Definition get_raw_unchecked (i : N) (v : ev) : outcome N :=
    let '(idx_w, idx_b) := block_index i in
    let! block := load_unchecked idx_w v in
    let! t := shr c block idx_b in
    let discr := N.land t MASK in
    Ret (cast_usize c discr).

  (** mod.rs:558-569 (unsafe) *)
  Definition set_raw_unchecked (i discr : N) : M ev unit :=
    let '(idx_w, idx_b) := block_index i in
    block <- reads (load_unchecked idx_w) ;;
    m <- lift (shl c MASK idx_b) ;;
    store_unchecked idx_w (N.land block (bnot c m)) ;;;
    block <- reads (load_unchecked idx_w) ;;
    d <- lift (shl c (cast_block c discr) idx_b) ;;
    store_unchecked idx_w (N.lor block d).

  (** mod.rs:527-535 *)
  Definition get_raw (i : N) (v : ev) : outcome (option N) :=
    if len v <=? i then Ret None
    else let! d := get_raw_unchecked i v in Ret (Some d).

  (** mod.rs:546-554 *)
  Definition set_raw (i discr : N) : M ev unit := fun v =>
    if len v <=? i then (Panic PIndex, v) else set_raw_unchecked i discr v.

  (** mod.rs:108-111 *)
  Definition get (i : N) (v : ev) : outcome (option T) :=
    let! r := get_raw i v in
    match r with
    | None => Ret None
    | Some d => let! x := from_discr E d in Ret (Some x)
    end.

  (** mod.rs:112-114 *)
  Definition set (i : N) (x : T) : M ev unit := set_raw i (to_d E x).

  (** mod.rs:128-145 *)
  Definition reserve (additional : N) : M ev unit :=
    n <- reads (fun v => Ret (len v)) ;;
    desired_cap <- lift (if n + additional <=? usize_max c then Ret (n + additional)
                         else Panic PExpect) ;;
    blocks <- lift (uadd c (desired_cap / EPB) 1) ;;
    on_storage (vec_resize c blocks 0).

  (** mod.rs:589-592 *)
  Definition fix_storage : M ev unit := fun v =>
    (Ret tt, mkEv (vec_truncate (blocks_for_elements (len v)) (storage v)) (num v)).

  (** mod.rs:147-150 *)
  Definition shrink_to_fit : M ev unit :=
    fix_storage ;;;
    fun v => (Ret tt, mkEv (vec_shrink_to_fit c (storage v)) (num v)).

  (** mod.rs:151-159 *)
  Definition truncate (n : N) : M ev unit := fun v =>
    if n <? num v then set_len n v else (Ret tt, v).

  (** mod.rs:429-432 *)
  Definition clear : M ev unit := truncate 0.

  (** mod.rs:572-577 *)
  Definition swap (ia ib : N) : M ev unit :=
    a <- reads (fun v => let! r := get_raw ia v in unwrap r) ;;
    b <- reads (fun v => let! r := get_raw ib v in unwrap r) ;;
    set_raw ia b ;;;
    set_raw ib a.

  (** mod.rs:579-586 *)
  Definition grow_if_needed : M ev unit := fun v =>
    if (len v mod EPB =? 0) && (blocks_for_elements (len v) =? vlen (storage v))
    then on_storage (vec_push c 0) v
    else (Ret tt, v).

  (** mod.rs:352-359 *)
  Definition push (x : T) : M ev unit :=
    grow_if_needed ;;;
    idx <- reads (fun v => Ret (num v)) ;;
    n1 <- lift (if idx + 1 <=? usize_max c then Ret (idx + 1) else Panic PExpect) ;;
    set_len n1 ;;;
    set idx x.

  (** mod.rs:360-369 *)
  Definition pop : M ev (option T) := fun v =>
    if is_empty v then (Ret None, v)
    else
      (i <- lift (usub c (num v) 1) ;;
       x <- reads (fun v => let! r := get i v in unwrap r) ;;
       n1 <- reads (fun v => usub c (num v) 1) ;;
       set_len n1 ;;;
       ret (Some x)) v.

  (** mod.rs:173-178 *)
  Definition swap_remove (index : N) : M ev T :=
    last <- reads (fun v => usub c (len v) 1) ;;
    swap index last ;;;
    r <- pop ;;
    lift (unwrap r).

  (** mod.rs:208-215: the closure shift_storage of insert; returns the new block
      and the element pushed out of it. *)
  Definition insert_shift (block at_zero : N) : outcome (N * N) :=
    let last_bit_offset := (EPB - 1) * BITS in
    let! t := shr c block last_bit_offset in
    let last := N.land t MASK in
    let! block1 := shl c block BITS in
    Ret (N.lor block1 at_zero, last).

  (** mod.rs:228-237: [while i < slow_limit], n = max(0, slow_limit - i) rounds.
      Returns the final (i, prev). *)
  Fixpoint insert_slow (n : nat) (i prev : N) : M ev (N * N) :=
    match n with
    | O => ret (i, prev)
    | S n' =>
        next <- reads (get_raw_unchecked i) ;;
        set_raw_unchecked i prev ;;;
        insert_slow n' (i + 1) next
    end.

  (** mod.rs:245-247: [for i in ib..(last_ib + 1)].  The block is stored even
      though a panic inside the closure would leave it partly updated; the only
      panic possible there (shift by >= W) happens before any write. *)
  Fixpoint insert_blocks (n : nat) (i prev : N) : M ev unit :=
    match n with
    | O => ret tt
    | S n' =>
        block <- reads (load i) ;;
        r <- lift (insert_shift block prev) ;;
        store i (fst r) ;;;
        insert_blocks n' (i + 1) (snd r)
    end.

  (** mod.rs:207-249 *)
  Definition insert (index : N) (element : T) : M ev unit :=
    push element ;;;
    let slow_insert := index mod EPB in
    self_len <- reads (fun v => Ret (len v)) ;;
    let prev := to_d E element in
    r <- (if 0 <? slow_insert then
            l0 <- lift (usub c index slow_insert) ;;
            l1 <- lift (uadd c l0 EPB) ;;
            let slow_limit := N.min l1 self_len in
            insert_slow (N.to_nat (slow_limit - index)) index prev
          else ret (index, prev)) ;;
    let i := fst r in
    let prev := snd r in
    self_len <- reads (fun v => Ret (len v)) ;;
    if i <? self_len then
      let ib := fst (block_index i) in
      l <- lift (usub c self_len 1) ;;
      let last_ib := fst (block_index l) in
      insert_blocks (N.to_nat (last_ib + 1 - ib)) ib (cast_block c prev)
    else ret tt.

  (** mod.rs:275-282: the closure shift_storage of remove. *)
  Definition remove_shift (block at_zero : N) : outcome (N * N) :=
    let last := N.land block MASK in
    let end_bit_offset := (EPB - 1) * BITS in
    let! block1 := shr c block BITS in
    let! t := shl c at_zero end_bit_offset in
    Ret (N.lor block1 t, last).

  (** mod.rs:288-294 *)
  Fixpoint remove_slow (n : nat) (i : N) : M ev N :=
    match n with
    | O => ret i
    | S n' =>
        next <- reads (get_raw_unchecked (i + 1)) ;;
        set_raw_unchecked i next ;;;
        remove_slow n' (i + 1)
    end.

  (** mod.rs:307-309: [for i in (ib..(last_ib + 1)).rev()], n blocks ending at
      index ib + n - 1 downwards.  Same remark on panics as for insert_blocks:
      the shift by BITS >= W panics before the write. *)
  Fixpoint remove_blocks (n : nat) (ib prev : N) : M ev unit :=
    match n with
    | O => ret tt
    | S n' =>
        let i := ib + N.of_nat n' in
        block <- reads (load i) ;;
        r <- lift (remove_shift block prev) ;;
        store i (fst r) ;;;
        remove_blocks n' ib (snd r)
    end.

  (** mod.rs:272-313 *)
  Definition remove (index : N) : M ev T :=
    x <- reads (fun v => let! r := get index v in unwrap r) ;;
    length <- reads (fun v => usub c (len v) 1) ;;
    block_limit <- lift (umul c (1 + fst (block_index index)) EPB) ;;
    let slow_limit := N.min length block_limit in
    i <- remove_slow (N.to_nat (slow_limit - index)) index ;;
    last <- reads (fun v => usub c (len v) 1) ;;
    prev <- reads (get_raw_unchecked last) ;;
    n1 <- reads (fun v => usub c (num v) 1) ;;
    set_len n1 ;;;
    self_len <- reads (fun v => Ret (len v)) ;;
    (if i <? self_len then
       let ib := fst (block_index i) in
       l <- lift (usub c self_len 1) ;;
       let last_ib := fst (block_index l) in
       remove_blocks (N.to_nat (last_ib + 1 - ib)) ib (cast_block c prev)
     else ret tt) ;;;
    ret x.

  (** mod.rs:332-339; the closure is a state transformer on St, None = it panics. *)
  Fixpoint retain_loop {St} (f : St -> T -> option (bool * St)) (n : nat) (i_get i_set : N) (st : St)
    : M ev (N * St) :=
    match n with
    | O => ret (i_set, st)
    | S n' =>
        x <- reads (fun v => let! r := get i_get v in unwrap r) ;;
        match f st x with
        | None => lift (Panic PUser)
        | Some (b, st') =>
            if b then
              set i_set x ;;;
              retain_loop f n' (i_get + 1) (i_set + 1) st'
            else retain_loop f n' (i_get + 1) i_set st'
        end
    end.

  (** mod.rs:324-344; returns the closure's final state. *)
  Definition retain {St} (f : St -> T -> option (bool * St)) (st : St) : M ev St :=
    l <- reads (fun v => Ret (len v)) ;;
    r <- retain_loop f (N.to_nat l) 0 0 st ;;
    set_len (fst r) ;;;
    ret (snd r).

  (** mod.rs:638-649; the closure returns the value it leaves in the element. *)
  Fixpoint for_each_loop {St} (f : St -> T -> option (T * St)) (n : nat) (i : N) (st : St) : M ev St :=
    match n with
    | O => ret st
    | S n' =>
        x <- reads (fun v => let! r := get i v in unwrap r) ;;
        match f st x with
        | None => lift (Panic PUser)
        | Some (y, st') =>
            set i y ;;;
            for_each_loop f n' (i + 1) st'
        end
    end.
  Definition for_each {St} (f : St -> T -> option (T * St)) (st : St) : M ev St :=
    l <- reads (fun v => Ret (len v)) ;;
    for_each_loop f (N.to_nat l) 0 st.

  (** mod.rs:914-916: [for i in 0..iter_len { self.set(self_len + i, iter.next().unwrap()) }].
      Returns the items not yet consumed. *)
  Fixpoint extend_known (n : nat) (i self_len : N) (pan : bool) (l : list T) : M ev (list T) :=
    match n with
    | O => ret l
    | S n' =>
        idx <- lift (uadd c self_len i) ;;
        match l with
        | [] => lift (if pan then Panic PUser else Panic PUnwrap)
        | x :: l' =>
            set idx x ;;;
            extend_known n' (i + 1) self_len pan l'
        end
    end.
  (** mod.rs:919-921 *)
  Fixpoint extend_rest (pan : bool) (l : list T) : M ev unit :=
    match l with
    | [] => if pan then lift (Panic PUser) else ret tt
    | x :: l' => push x ;;; extend_rest pan l'
    end.
  (** mod.rs:907-922 *)
  Definition extend (it : iter T) : M ev unit :=
    let iter_len := lower it in
    self_len <- reads (fun v => Ret (len v)) ;;
    reserve iter_len ;;;
    n <- reads (fun v => uadd c (num v) iter_len) ;;
    set_len n ;;;
    rest <- extend_known (N.to_nat iter_len) 0 self_len (ends_in_panic it) (items it) ;;
    extend_rest (ends_in_panic it) rest.

  (** An iterator with an exact size_hint (slices, Vec, repeat.take, Range, ...). *)
  Definition exact_iter (l : list T) : iter T := mkIter l (lenN l) false.

  (** mod.rs:499-502: [while i < STORAGE_BLOCK_SIZE { block_value |= block_value << i; i *= 2 }].
      Fuel; running out of it is reported as UB and excluded by the theorems. *)
  Fixpoint fill_pattern (fuel : nat) (block_value i : N) : outcome N :=
    match fuel with
    | O => UB
    | S f =>
        if i <? W c then
          let! t := shl c block_value i in
          fill_pattern f (N.lor block_value t) (i * 2)
        else Ret block_value
    end.

  (** mod.rs:513-516 (the loop resizes by count_blocks, count_blocks times) *)
  Definition fill_blocks (count_blocks block_value : N) : M ev unit :=
    for_range (N.to_nat count_blocks) 0 (fun _ =>
      storage_len <- reads (fun v => Ret (vlen (storage v))) ;;
      n <- lift (uadd c storage_len count_blocks) ;;
      on_storage (vec_resize c n block_value)).

  (** mod.rs:480-525 *)
  Definition extend_with_value (value : T) (count : N) : M ev unit :=
    if count <=? 4 * EPB then
      extend (exact_iter (repeat value (N.to_nat count)))
    else
      self_len <- reads (fun v => Ret (len v)) ;;
      let to_insert_first := EPB - self_len mod EPB in
      extend (exact_iter (repeat value (N.to_nat to_insert_first))) ;;;
      count_end <- lift (usub c count to_insert_first) ;;
      let count_blocks := count_end / EPB in
      to_insert_mid <- lift (umul c count_blocks EPB) ;;
      s <- lift (uadd c to_insert_first to_insert_mid) ;;
      to_insert_last <- lift (usub c count s) ;;
      block_value <- lift (fill_pattern 9 (cast_block c (to_d E value)) BITS) ;;
      old_len <- reads (fun v => Ret (len v)) ;;
      fix_storage ;;;
      on_storage (vec_reserve c (count_blocks + (if 0 <? to_insert_last then 1 else 0))) ;;;
      fill_blocks count_blocks block_value ;;;
      mid <- lift (umul c count_blocks EPB) ;;
      n <- lift (uadd c old_len mid) ;;
      set_len n ;;;
      extend (exact_iter (repeat value (N.to_nat to_insert_last))).

  (** mod.rs:461-470 *)
  Definition resize (new_len : N) (value : T) : M ev unit :=
    l <- reads (fun v => Ret (len v)) ;;
    if l <? new_len then
      d <- lift (usub c new_len l) ;;
      extend_with_value value d
    else truncate new_len.

  (** Run a constructor body on a fresh local vector: the vector is dropped if it panics. *)
  Definition build {A} (m : M ev A) : outcome ev :=
    match m ev_new with
    | (Ret _, v) => Ret v
    | (Panic k, _) => Panic k
    | (Abort, _) => Abort
    | (UB, _) => UB
    end.

  (** mod.rs:668-674, 685-691, 925-932, 938-942; enum_vec/src/lib.rs:28-36 (macro) *)
  Definition from_elem (x : T) (n : N) : outcome ev := build (extend_with_value x n).
  Definition from_slice (l : list T) : outcome ev := build (extend (exact_iter l)).
  Definition from_iter (it : iter T) : outcome ev := build (extend it).
  Definition from_vec (l : list T) : outcome ev := from_iter (exact_iter l).

  (** Range<usize>: next, next_back, nth (std, external: documented behaviour). *)
  Definition range_next (r : range) : option N * range :=
    if r_start r <? r_end r then (Some (r_start r), mkRange (r_start r + 1) (r_end r)) else (None, r).
  Definition range_next_back (r : range) : option N * range :=
    if r_start r <? r_end r then (Some (r_end r - 1), mkRange (r_start r) (r_end r - 1)) else (None, r).
  Definition range_nth (n : N) (r : range) : option N * range :=
    if r_start r + n <? r_end r then (Some (r_start r + n), mkRange (r_start r + n + 1) (r_end r))
    else (None, mkRange (r_end r) (r_end r)).

  (** mod.rs:954-960, 967-973, 608-610 *)
  Definition into_iter (v : ev) : range := mkRange 0 (len v).
  (** [.map(|x| self.v.get(x).unwrap())] *)
  Definition iter_item (v : ev) (o : option N) : outcome (option T) :=
    match o with
    | None => Ret None
    | Some i => let! r := get i v in let! x := unwrap r in Ret (Some x)
    end.
  (** mod.rs:1014-1016 / 1055-1057; 1032-1034 / 1073-1075; 1026-1028 / 1067-1069; 1018-1024 / 1059-1065 *)
  Definition iter_next (v : ev) : M range (option T) := fun r =>
    let '(o, r') := range_next r in (iter_item v o, r').
  Definition iter_next_back (v : ev) : M range (option T) := fun r =>
    let '(o, r') := range_next_back r in (iter_item v o, r').
  Definition iter_nth (v : ev) (n : N) : M range (option T) := fun r =>
    let '(o, r') := range_nth n r in (iter_item v o, r').
  Definition iter_size_hint (r : range) : N := r_end r - r_start r.
  Definition iter_count (r : range) : N := iter_size_hint r.

  (** collecting an iterator: next until None; fuel = number of items left *)
  Fixpoint iter_collect (v : ev) (fuel : nat) (r : range) : outcome (list T) :=
    match iter_next v r with
    | (Ret None, _) => Ret []
    | (Ret (Some x), r') =>
        match fuel with
        | O => UB
        | S f => let! l := iter_collect v f r' in Ret (x :: l)
        end
    | (Panic k, _) => Panic k
    | (Abort, _) => Abort
    | (UB, _) => UB
    end.

  (** mod.rs:661-666 (and Into<Vec<T>> 944-948; Debug 890-894 prints the same entries).
      Vec::extend drains the iterator; Vec<T> is a list, its own allocation is not modelled. *)
  Definition to_vec (v : ev) : outcome (list T) :=
    let r := into_iter v in iter_collect v (N.to_nat (iter_size_hint r)) r.

  (** mod.rs:777-784 / 857-860: constants of any/all *)
  Definition one_mask : outcome N := shr c (bones c / MASK) (W c mod BITS).
  Definition x_mask (x : T) : outcome N :=
    let! o := one_mask in bmul c (cast_block c (to_d E x)) o.

  (** mod.rs:793-795 *)
  Definition haszero (one high v : N) : bool :=
    negb (N.land (N.land (bwrapping_sub c v one) (bnot c v)) high =? 0).

  (** mod.rs:797-801 *)
  Fixpoint any_loop (n : nat) (i one high xm : N) (v : ev) : outcome bool :=
    match n with
    | O => Ret false
    | S n' =>
        let! b := load i v in
        if haszero one high (N.lxor b xm) then Ret true
        else any_loop n' (i + 1) one high xm v
    end.

  (** mod.rs:764-816 *)
  Definition any (x : T) (v : ev) : outcome bool :=
    if is_empty v then Ret false
    else
      let '(last_block, last_elem_shift) := block_index (len v) in
      let! one := one_mask in
      let! high := shl c one (BITS - 1) in
      let! xm := x_mask x in
      let! found := any_loop (N.to_nat last_block) 0 one high xm v in
      if found then Ret true
      else if negb (last_elem_shift =? 0) then
        let! last_block_mask := shl c (bones c) last_elem_shift in
        let! b := load last_block v in
        Ret (haszero one high (N.lor (N.lxor b xm) last_block_mask))
      else Ret false.

  (** mod.rs:868-872 *)
  Fixpoint all_loop (n : nat) (i valid xm : N) (v : ev) : outcome bool :=
    match n with
    | O => Ret true
    | S n' =>
        let! b := load i v in
        if negb (N.land b valid =? xm) then Ret false
        else all_loop n' (i + 1) valid xm v
    end.

  (** mod.rs:845-885 *)
  Definition all (x : T) (v : ev) : outcome bool :=
    if is_empty v then Ret true
    else
      let '(last_block, last_elem_shift) := block_index (len v) in
      let! valid := shr c (bones c) (W c mod BITS) in
      let! xm := x_mask x in
      let! ok := all_loop (N.to_nat last_block) 0 valid xm v in
      if negb ok then Ret false
      else if negb (last_elem_shift =? 0) then
        let! m := shl c (bones c) last_elem_shift in
        let last_block_mask := bnot c m in
        let! b := load last_block v in
        Ret (N.land b last_block_mask =? N.land xm last_block_mask)
      else Ret true.

  (** mod.rs:1097-1105 *)
  Fixpoint eq_loop (n : nat) (i : N) (v w : ev) : outcome bool :=
    match n with
    | O => Ret true
    | S n' =>
        let! a := get_raw_unchecked i v in
        let! b := get_raw_unchecked i w in
        if a =? b then eq_loop n' (i + 1) v w else Ret false
    end.
  (** mod.rs:1093-1109 *)
  Definition eq (v w : ev) : outcome bool :=
    if len v =? len w then eq_loop (N.to_nat (len v)) 0 v w else Ret false.

  (** mod.rs:1115-1121: the sequence of usize values fed to the Hasher *)
  Fixpoint hash_loop (n : nat) (i : N) (v : ev) : outcome (list N) :=
    match n with
    | O => Ret []
    | S n' =>
        let! x := get_raw_unchecked i v in
        let! l := hash_loop n' (i + 1) v in
        Ret (x :: l)
    end.
  Definition hash (v : ev) : outcome (list N) := hash_loop (N.to_nat (len v)) 0 v.

  (** mod.rs:14 #[derive(Clone)] *)
  Definition clone (v : ev) : outcome ev :=
    let! s := vec_clone c (storage v) in Ret (mkEv s (num v)).

  (** mod.rs:388-412; smallvec_u32/mod.rs:389-414.  [fst] is self, [snd] is other.
      In the Vec storages the fast path moves other.storage away
      (Vec::append leaves it empty, keeping its capacity) without touching
      other.num_elements; the smallvec one copies and calls other.clear(). *)
  Definition append : M (ev * ev) unit :=
    other_len <- reads (fun s => Ret (len (snd s))) ;;
    self_len <- reads (fun s => Ret (len (fst s))) ;;
    if self_len mod EPB =? 0 then
      on_fst fix_storage ;;;
      on_snd fix_storage ;;;
      other_data <- reads (fun s => Ret (data (storage (snd s)))) ;;
      on_fst (on_storage (vec_extend_from c other_data)) ;;;
      (if small c then on_snd clear
       else on_snd (fun o => (Ret tt, mkEv (mkRvec [] (vcap (storage o))) (num o)))) ;;;
      n <- reads (fun s => uadd c (num (fst s)) other_len) ;;
      on_fst (set_len n)
    else
      on_fst (reserve other_len) ;;;
      n <- lift (uadd c self_len other_len) ;;
      on_fst (set_len n) ;;;
      for_range (N.to_nat other_len) 0 (fun i =>
        idx <- lift (uadd c self_len i) ;;
        d <- reads (fun s => get_raw_unchecked i (snd s)) ;;
        on_fst (set_raw_unchecked idx d)) ;;;
      on_snd clear.

  (** mod.rs:443-459.  The new vector is a local: it is returned on success only. *)
  Definition split_off (at_ : N) : M ev ev := fun v =>
    if at_ <=? len v then
      (other_len <- reads (fun v => usub c (len v) at_) ;;
       other0 <- lift (with_capacity other_len) ;;
       let '(o, other) :=
         (set_len other_len ;;;
          for_range (N.to_nat other_len) 0 (fun i =>
            idx <- lift (uadd c at_ i) ;;
            d <- lift (get_raw_unchecked idx v) ;;
            set_raw_unchecked i d)) other0 in
       lift o ;;;
       set_len at_ ;;;
       ret other) v
    else (Panic PAssert, v).
End EnumVec.
