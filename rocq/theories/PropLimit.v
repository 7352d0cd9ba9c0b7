(** PropLimit.v -- numbers of elements in the last incomplete block below usize::MAX
    (not [countable], Claims.v).  Only 32-bit targets have the memory for them.  What is
    missing in C04_insert_partial, C05_remove_partial, C09_append_partial and
    C25_with_capacity_partial: exactly what the code does there. *)
From Verif Require Import LimitFacts.
Open Scope N_scope.

(** ** C04: insert *)
(** a release build inserts at the start of the last block instead *)
Theorem C04_insert_limit : forall T (c : cfg) (E : enumlike T), setting c E -> ovf c = false ->
  forall v l i x, holds c E v l -> i <= lenN l -> ~ countable c E i ->
  result (insert c E i x v) (fun _ v' => holds c E v' (l_insert l (EPB c E * (usize_max c / EPB c E)) x)) (grow_fails c E v l).
Proof. intros T c E Hs Ho v l i x H Hi Hn. exact (insert_limit_ok Hs x Ho H Hi Hn). Qed.
(** a debug build always panics, having appended the element *)
Theorem C04_insert_limit_debug : forall T (c : cfg) (E : enumlike T), setting c E -> ovf c = true ->
  forall v l i x, holds c E v l -> i <= lenN l -> ~ countable c E i ->
  result (insert c E i x v) (fun _ v' => False)
    (fun k v' => grow_fails c E v l k v' \/ (k = POverflow /\ holds c E v' (l ++ [x]))).
Proof. intros T c E Hs Ho v l i x H Hi Hn. exact (insert_limit_debug Hs x Ho H Hi Hn). Qed.
Example C04_limit_example : forall debug, let c := lim debug false in let l := repeat f2 (N.to_nat (2 ^ 32 - 2)) in
  setting c (fin 2) /\ ovf c = debug /\ holds c (fin 2) (zeros (2 ^ 32 - 2)) l /\ 2 ^ 32 - 5 <= lenN l /\ ~ countable c (fin 2) (2 ^ 32 - 5) /\
  EPB c (fin 2) * (usize_max c / EPB c (fin 2)) = 2 ^ 32 - 32.
Proof.
  intros debug c l. split; [apply s_lim|]. split; [reflexivity|]. split; [apply zeros_holds; discriminate|].
  split; [unfold l; rewrite lenN_repeat, N2Nat.id; discriminate|]. split; [apply lim_uncountable; reflexivity|reflexivity].
Qed.

(** ** C05: remove *)
(** a release build returns the element asked for but takes out the first one of the last
    block (unless the last element is removed) *)
Theorem C05_remove_limit : forall T (c : cfg) (E : enumlike T), setting c E -> ovf c = false ->
  forall v l i x, holds c E v l -> l_get l i = Some x -> ~ countable c E (i + 1) ->
  exists v', remove c E i v = (Ret x, v') /\
    holds c E v' (l_remove l (if i + 1 =? lenN l then i else EPB c E * (usize_max c / EPB c E))).
Proof. intros T c E Hs Ho v l i x H Hx Hn. exact (remove_limit Hs Ho H Hx Hn). Qed.
(** a debug build panics and leaves the vector alone *)
Theorem C05_remove_limit_debug : forall T (c : cfg) (E : enumlike T), setting c E -> ovf c = true ->
  forall v l i x, holds c E v l -> l_get l i = Some x -> ~ countable c E (i + 1) ->
  remove c E i v = (Panic POverflow, v).
Proof. intros T c E Hs Ho v l i x H Hx Hn. exact (remove_limit_debug Hs Ho H Hx Hn). Qed.
Example C05_limit_example : forall debug, let c := lim debug false in let l := repeat f2 (N.to_nat (2 ^ 32 - 2)) in
  setting c (fin 2) /\ ovf c = debug /\ holds c (fin 2) (zeros (2 ^ 32 - 2)) l /\ l_get l (2 ^ 32 - 5) = Some f2 /\ ~ countable c (fin 2) (2 ^ 32 - 5 + 1).
Proof.
  intros debug c l. split; [apply s_lim|]. split; [reflexivity|]. split; [apply zeros_holds; discriminate|].
  split; [apply l_get_repeat; rewrite N2Nat.id; reflexivity|apply lim_uncountable; reflexivity].
Qed.

(** ** C09: append to a block-aligned vector *)
(** an empty destination and a source in the last block: the elements from there on end up
    with a length but no storage, in the destination, or in the source if memory runs out *)
Theorem C09_append_limit : forall T (c : cfg) (E : enumlike T), setting c E ->
  forall v w m, holds c E v [] -> holds c E w m -> ~ countable c E (lenN m) ->
  result (append c E (v, w))
    (fun _ s => cut_off c E (fst s) m /\ emptied c E (snd s) m)
    (fun k s => k = PCapacity /\ holds c E (fst s) [] /\ cut_off c E (snd s) m).
Proof. intros T c E Hs v w m H H' Hn. exact (append_cut Hs H H' Hn). Qed.
(** more than usize::MAX elements in total: a debug build panics, but the source is gone; a
    release build keeps the sum modulo usize::MAX + 1 of the destination's elements *)
Theorem C09_append_overflow : forall T (c : cfg) (E : enumlike T), setting c E ->
  forall v w l m, holds c E v l -> holds c E w m -> lenN l mod EPB c E = 0 -> usize_max c < lenN l + lenN m ->
  result (append c E (v, w))
    (fun _ s => ovf c = false /\ holds c E (fst s) (firstn (N.to_nat (lenN l + lenN m - (usize_max c + 1))) l) /\ emptied c E (snd s) m)
    (fun k s => holds c E (fst s) l /\
       ((k = PCapacity /\ (countable c E (lenN m) -> holds c E (snd s) m) /\ (~ countable c E (lenN m) -> cut_off c E (snd s) m)) \/
        (k = POverflow /\ ovf c = true /\ emptied c E (snd s) m))).
Proof. intros T c E Hs v w l m H H' Hm Ho. exact (append_over Hs H H' Hm Ho). Qed.
Example C09_limit_example : forall debug sm, let c := lim debug sm in let l := repeat f2 (N.to_nat 64) in let m := repeat f2 (N.to_nat (2 ^ 32 - 2)) in
  setting c (fin 2) /\ holds c (fin 2) (ev_new c) [] /\ holds c (fin 2) (zeros (2 ^ 32 - 2)) m /\ ~ countable c (fin 2) (lenN m) /\
  holds c (fin 2) (zeros 64) l /\ lenN l mod EPB c (fin 2) = 0 /\ usize_max c < lenN l + lenN m.
Proof.
  intros debug sm c l m. assert (Hl : lenN l = 64) by reflexivity.
  assert (Hm : lenN m = 2 ^ 32 - 2) by (unfold m; rewrite lenN_repeat, N2Nat.id; reflexivity). rewrite Hl, Hm.
  split; [apply s_lim|]. split; [exact (proj1 (new_ok (s_lim debug sm)))|].
  split; [apply zeros_holds; discriminate|]. split; [apply lim_uncountable; reflexivity|]. split; [apply zeros_holds; discriminate|].
  split; [reflexivity|]. reflexivity.
Qed.

(** ** C25: with_capacity *)
(** it makes room up to the last incomplete block only *)
Theorem C25_with_capacity_limit : forall T (c : cfg) (E : enumlike T), setting c E -> forall n, n <= usize_max c -> ~ countable c E n ->
  with_capacity c E n = with_capacity c E (EPB c E * (usize_max c / EPB c E)).
Proof. intros T c E Hs n Hn Hc. exact (with_capacity_limit Hs Hn Hc). Qed.
Theorem C25_with_capacity_refuted : ~ C25_full.
Proof. exact C25_not. Qed.
Example C25_limit_example : match with_capacity (lim false false) (fin 2) (2 ^ 32 - 1) with
  | Ret v => capacity (lim false false) (fin 2) v =? 2 ^ 32 - 32 | _ => false end = true /\ ~ countable (lim false false) (fin 2) (2 ^ 32 - 1).
Proof. split; [vm_compute; reflexivity|apply lim_uncountable; reflexivity]. Qed.
