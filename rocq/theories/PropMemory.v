(** PropMemory.v -- C44: calls fail for lack of memory only when they ask for too much.
    [grants c n] (Memory.v): whatever the growth policy asks for when at most n blocks are
    needed is granted.  [provides c E n]: moreover n + 1 blocks hold at most usize::MAX elements
    (on 64-bit targets this follows: C44_provides). *)
From Verif Require Import MemFacts3 PropProg.
Open Scope N_scope.

Theorem C44_provides : forall T (c : cfg) (E : enumlike T), cfg_ok c -> admits c E -> roomy c -> forall n, grants c n -> provides c E n.
Proof. intros T c E Hc Ha Hr n Hg. exact (roomy_provides Hc Ha Hr Hg). Qed.

(** ** C44, call by call: given the memory for its result, the call returns *)
Theorem C44_push : forall T (c : cfg) (E : enumlike T), setting c E -> forall v l x, holds c E v l ->
  provides c E (lenN l / EPB c E + 1) -> exists v', push c E x v = (Ret tt, v') /\ holds c E v' (l ++ [x]).
Proof. intros T c E Hs v l x H Hg. exact (push_fed Hs x H Hg). Qed.
Theorem C44_insert : forall T (c : cfg) (E : enumlike T), setting c E -> BITS E < W c -> forall v l i x, holds c E v l -> i <= lenN l ->
  provides c E (lenN l / EPB c E + 1) -> exists v', insert c E i x v = (Ret tt, v') /\ holds c E v' (l_insert l i x).
Proof. intros T c E Hs Hw v l i x H Hi Hg. exact (insert_fed Hs x Hw H Hi Hg). Qed.
Theorem C44_extend : forall T (c : cfg) (E : enumlike T), setting c E -> forall v l it, holds c E v l ->
  lower it <= lenN (items it) -> ends_in_panic it = false -> provides c E ((lenN l + lenN (items it)) / EPB c E + 1) ->
  exists v', extend c E it v = (Ret tt, v') /\ holds c E v' (l ++ items it).
Proof. intros T c E Hs v l it H Hl Hp Hg. exact (extend_fed Hs H Hl Hp Hg). Qed.
Theorem C44_from_iter : forall T (c : cfg) (E : enumlike T), setting c E -> forall it,
  lower it <= lenN (items it) -> ends_in_panic it = false -> provides c E (lenN (items it) / EPB c E + 1) ->
  exists v, from_iter c E it = Ret v /\ holds c E v (items it).
Proof. intros T c E Hs it Hl Hp Hg. exact (from_iter_fed Hs Hl Hp Hg). Qed.
Theorem C44_reserve : forall T (c : cfg) (E : enumlike T), setting c E -> forall v l k, holds c E v l ->
  provides c E ((lenN l + k) / EPB c E + 1) -> exists v', reserve c E k v = (Ret tt, v') /\ holds c E v' l /\ lenN l + k <= capacity c E v'.
Proof. intros T c E Hs v l k H Hg. exact (reserve_fed Hs H Hg). Qed.
Theorem C44_with_capacity : forall T (c : cfg) (E : enumlike T), setting c E -> forall n,
  provides c E (n / EPB c E + 1) -> exists v, with_capacity c E n = Ret v /\ holds c E v [] /\ n <= capacity c E v.
Proof. intros T c E Hs n Hg. exact (with_capacity_fed Hs Hg). Qed.
Theorem C44_append : forall T (c : cfg) (E : enumlike T), setting c E -> forall v w l m, holds c E v l -> holds c E w m ->
  small c = true \/ lenN l mod EPB c E <> 0 -> provides c E ((lenN l + lenN m) / EPB c E + 1) ->
  exists v' w', append c E (v, w) = (Ret tt, (v', w')) /\ holds c E v' (l ++ m) /\ holds c E w' [].
Proof. intros T c E Hs v w l m H1 H2 Hx Hg. exact (append_fed Hs H1 H2 Hx Hg). Qed.
(** clone needs what the storage being cloned already occupies *)
Theorem C44_clone : forall T (c : cfg) (E : enumlike T), setting c E -> forall v l, holds c E v l ->
  grants c (vlen (storage v)) -> exists w, clone c v = Ret w /\ holds c E w l.
Proof. intros T c E Hs v l H Hg. exact (clone_fed Hs H Hg). Qed.
(** from_elem and resize need, beyond four blocks' worth of new elements, the square of the
    number of blocks filled (see C12) *)
Theorem C44_from_elem : forall T (c : cfg) (E : enumlike T), setting c E -> forall x n,
  provides c E (if n <=? 4 * EPB c E then n / EPB c E + 1 else 2 + (n / EPB c E) * (n / EPB c E)) ->
  exists v, from_elem c E x n = Ret v /\ holds c E v (repeat x (N.to_nat n)).
Proof.
  intros T c E Hs x n Hg. apply (from_elem_fed Hs). unfold fill_demand. rewrite N.div_0_l; [exact Hg|].
  pose proof (EPB_pos (s_ok Hs) (s_comp Hs)) as H. lia.
Qed.
Theorem C44_resize : forall T (c : cfg) (E : enumlike T), setting c E -> forall v l n x, holds c E v l ->
  provides c E (let k := n - lenN l in if k <=? 4 * EPB c E then (lenN l + k) / EPB c E + 1 else lenN l / EPB c E + 2 + (k / EPB c E) * (k / EPB c E)) ->
  exists v', resize c E n x v = (Ret tt, v') /\
    holds c E v' (if lenN l <? n then l ++ repeat x (N.to_nat (n - lenN l)) else firstn (N.to_nat n) l).
Proof. intros T c E Hs v l n x H Hg. exact (resize_fed Hs x H Hg). Qed.

(** ** C44 for whole programs *)
(** any program, whatever it does otherwise, and any EnumLike implementation: if what its
    calls ask for ([demands], Memory.v) can be granted, none of them panics or aborts for lack of memory *)
Theorem C44_no_failure : forall T (c : cfg) (E : enumlike T), cfg_ok c -> admits c E ->
  forall prog, provides c E (demands c E [] prog) ->
  ~ In MCap (fst (m_run c E [] prog)) /\ ~ In MAbort (fst (m_run c E [] prog)).
Proof.
  intros T c E Hc Ha prog Hg. pose proof (run_stays Hc (proj2 Hg) Ha (grants_serves (proj1 Hg)) (Forall_nil _) (N.le_refl _)) as [H _]. rewrite Forall_forall in H.
  split; intros G; exact (H _ G).
Qed.
(** the programs of C22: every call then completes, with the result it has on Vec *)
Theorem C44_program : forall T (c : cfg) (E : enumlike T), setting c E ->
  forall prog, ok_program c E prog = true -> provides c E (vec_demands c E [] prog) ->
  fst (m_run c E [] prog) = map (@MRes T) (fst (s_run (to_d E) [] prog)).
Proof. intros T c E Hs prog H Hg. exact (run_fed Hs (grants_serves (proj1 Hg)) (proj2 Hg) (PR_nil (s_ok Hs) (s_comp Hs) (s_alloc Hs) (s_d Hs) (s_fd Hs)) (Forall_nil _) H (N.le_refl _)). Qed.

(** Rust's growth policy on a machine with 2^40 blocks grants 2^39 blocks: about 5.5 * 10^12
    elements of 3 bits pushed one by one, or 7 million by from_elem *)
Lemma std_grants w usz debug sm n : 2 * n <= 2 ^ 40 -> (2 * n) * (w / 8) <= 2 ^ (usz - 1) - 1 ->
  grants (std_cfg w usz debug sm (2 ^ 40)) n.
Proof.
  intros H1 H2 cap need Hc Hn. unfold isize_max. cbn [grow alloc_max W usize_bits std_cfg].
  assert (H : N.max (2 * cap) need <= 2 * n) by (apply N.max_lub; [apply N.mul_le_mono_l; transitivity need; [apply N.lt_le_incl; exact Hc|exact Hn]|
    transitivity n; [exact Hn|]; rewrite <- (N.mul_1_l n) at 1; apply N.mul_le_mono_r; discriminate]).
  split; [transitivity (2 * n); assumption|]. transitivity (2 * n * (w / 8)); [apply N.mul_le_mono_r; exact H|exact H2].
Qed.
Example C44_example : provides u32_debug (fin 5) (2 ^ 39) /\ provides u32_debug (fin 5) (vec_demands u32_debug (fin 5) [] (demo f5)) /\
  vec_demands u32_debug (fin 5) [] (demo f5) = 27 /\ demands u32_debug (fin 5) [] (demo f5) = 27 /\
  ok_program u32_debug (fin 5) (demo f5) = true /\
  2 + (7000000 / EPB u32_debug (fin 5)) * (7000000 / EPB u32_debug (fin 5)) <= 2 ^ 39.
Proof.
  split; [split; [apply std_grants; discriminate|vm_compute; discriminate]|].
  split; [split; [apply std_grants; vm_compute; discriminate|vm_compute; discriminate]|]. split; [vm_compute; reflexivity|].
  split; [vm_compute; reflexivity|]. split; [vm_compute; reflexivity|vm_compute; discriminate].
Qed.
(** and the memory is needed: with room for only 8 blocks from_elem(x, 41) aborts, although
    its 41 elements of 3 bits occupy 5 *)
Example C44_example_too_little : from_elem (std_cfg 32 64 true false 8) (fin 5) (f5 1) 41 = Abort /\ 41 / EPB (std_cfg 32 64 true false 8) (fin 5) + 1 = 5.
Proof. split; vm_compute; reflexivity. Qed.
