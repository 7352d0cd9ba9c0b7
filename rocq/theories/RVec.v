(** RVec.v -- the storage container.

    Models the part of std::vec::Vec<StorageBlock> (or smallvec::SmallVec<[u32;4]>)
    that enum_vec uses.  These are external to /repo; the contract assumed is their
    documented one: contents as a list, a capacity that is at least the length, a
    growth policy that is an arbitrary oracle ([grow], [shrink] in [cfg]),
    "capacity overflow" panic above isize::MAX bytes, abort when the allocator fails.
    Simplification: SmallVec's inline buffer is only visible through [grow]/[shrink]
    and the initial capacity. *)
From Verif Require Export Machine.
Open Scope N_scope.
Set Implicit Arguments.

Record rvec := mkRvec { data : list N; vcap : N }.

Section RVec.
  Variable c : cfg.

  (** Vec::new() has capacity 0; SmallVec::new() has its 4 inline blocks. *)
  Definition vec_new : rvec := mkRvec [] (if small c then 4 else 0).

  Definition vlen (s : rvec) : N := lenN (data s).

  (** Make room for [need] blocks in total; contents unchanged. *)
  Definition vec_ensure (need : N) (s : rvec) : outcome rvec :=
    if need <=? vcap s then Ret s
    else
      let nc := grow c (vcap s) need in
      if isize_max c <? nc * (W c / 8) then Panic PCapacity
      else if alloc_max c <? nc then Abort
      else Ret (mkRvec (data s) nc).

  Definition vec_with_capacity (n : N) : outcome rvec := vec_ensure n vec_new.

  (** Vec::reserve(additional) *)
  Definition vec_reserve (additional : N) (s : rvec) : outcome rvec :=
    vec_ensure (vlen s + additional) s.

  (** Vec::push *)
  Definition vec_push (x : N) (s : rvec) : outcome rvec :=
    let! s1 := vec_ensure (vlen s + 1) s in
    Ret (mkRvec (data s1 ++ [x]) (vcap s1)).

  (** Vec::truncate: no effect when n >= len; the capacity is kept. *)
  Definition vec_truncate (n : N) (s : rvec) : rvec :=
    mkRvec (firstn (N.to_nat n) (data s)) (vcap s).

  (** Vec::resize *)
  Definition vec_resize (n x : N) (s : rvec) : outcome rvec :=
    if n <=? vlen s then Ret (vec_truncate n s)
    else
      let! s1 := vec_ensure n s in
      Ret (mkRvec (data s1 ++ repeat x (N.to_nat (n - vlen s))) (vcap s1)).

  (** Vec::append(&mut other) / SmallVec::extend_from_slice(&other): the
      receiver; emptying the source is done by the caller. *)
  Definition vec_extend_from (l : list N) (s : rvec) : outcome rvec :=
    let! s1 := vec_ensure (vlen s + lenN l) s in
    Ret (mkRvec (data s1 ++ l) (vcap s1)).

  (** Vec::shrink_to_fit *)
  Definition vec_shrink_to_fit (s : rvec) : rvec :=
    mkRvec (data s) (shrink c (vcap s) (vlen s)).

  (** Clone: allocates exactly what the contents need (oracle: [grow] from empty). *)
  Definition vec_clone (s : rvec) : outcome rvec :=
    vec_extend_from (data s) vec_new.
End RVec.
