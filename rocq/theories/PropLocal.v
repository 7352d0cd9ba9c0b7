(** PropLocal.v -- C57: a call changes only the storage blocks it must.
    [touches c E ns o r j] (Local.v): may the call o change or drop block j of vector r, when the
    vectors have lengths ns?  [block_is v j b]: storage()[j] is b.  [sane]: amounts are usizes. *)
From Verif Require Import LocalFacts4 SafeAny ClaimFacts PropProg.
Open Scope N_scope.

(** Whatever the element type (lawful or not, panicking or not), whatever the call returns -- also
    when it panics half way, or fails or aborts for lack of memory -- every vector is still there,
    and every block outside the ones the call works on holds exactly the bits it held. *)
Theorem C57_calls : forall T (c : cfg) (E : enumlike T), cfg_ok c -> compiles c E = true -> alloc_isize c ->
  forall p o out p', Forall (valid c E) p -> sane c E (map len p) o = true -> m_step c E p o = (out, p') ->
  forall r v, nth_error p r = Some v -> exists v', nth_error p' r = Some v' /\
    forall j b, touches c E (map len p) o r j = false -> block_is v j b -> block_is v' j b.
Proof.
  intros T c E Hc Hcomp Hai p o out p' Hp Hs Ho r v Hv. pose proof (proj1 (any_Forall_valid Hc Hcomp Hai p) Hp) as Hw.
  pose proof (steps_stay Hc Hcomp Hai o Hw Hs _ Hv) as G. rewrite Ho in G. exact G.
Qed.
(** So an element that stays within the length and whose block the call does not work on reads the same. *)
Theorem C57_elements : forall T (c : cfg) (E : enumlike T), cfg_ok c -> compiles c E = true -> alloc_isize c ->
  forall p o out p', Forall (valid c E) p -> sane c E (map len p) o = true -> m_step c E p o = (out, p') ->
  forall r v v' i, nth_error p r = Some v -> nth_error p' r = Some v' -> i < len v -> i < len v' ->
  touches c E (map len p) o r (home c E i) = false -> get c E i v' = get c E i v.
Proof.
  intros T c E Hc Hcomp Hai p o out p' Hp Hs Ho r v v' i Hv Hv' L L' Ht.
  destruct (C57_calls T c E Hc Hcomp Hai p o out p' Hp Hs Ho r v Hv) as (w & Hw & K). assert (w = v') as -> by congruence.
  assert (W1 : WF c E v). { apply WF_valid. rewrite Forall_forall in Hp. apply Hp. eapply nth_error_In. exact Hv. }
  destruct (get_block Hc Hcomp Hai W1 L) as [b Hb]. exact (get_same c E Hb (K _ _ Ht Hb) L L').
Qed.
(** Whole programs: a block that no call of the program works on ends up with exactly the bits it began with, even if
    calls fail, panic or the allocator gives up half way.  (Programs as in C21.) *)
Theorem C57_programs : forall T (c : cfg) (E : enumlike T), cfg_ok c -> compiles c E = true -> alloc_isize c ->
  forall p prog, Forall (valid c E) p -> safe_run c E p prog = true ->
  forall r v j b, spared c E p prog r j = true -> nth_error p r = Some v -> block_is v j b ->
  exists v', nth_error (snd (m_run c E p prog)) r = Some v' /\ block_is v' j b.
Proof. intros T c E Hc Hcomp Hai p prog Hp Hs r v j b Hu Hv Hb. eapply run_stays; eassumption. Qed.
(** What calls look at: the length and the blocks in use, nothing else -- not the bits of spare blocks, the capacity,
    or which vector it is.  Holds for any element type and any contents, valid or not. *)
Theorem C57_reads : forall T (c : cfg) (E : enumlike T), cfg_ok c -> compiles c E = true -> alloc_isize c ->
  forall v w, same_used c E v w ->
  (forall i, get c E i v = get c E i w) /\ (forall x, any c E x v = any c E x w) /\ (forall x, all c E x v = all c E x w) /\
  hash c E v = hash c E w /\ to_vec c E v = to_vec c E w /\
  (forall calls, m_iter c E v (into_iter v) calls = m_iter c E w (into_iter w) calls) /\
  (forall v2 w2, same_used c E v2 w2 -> eq c E v v2 = eq c E w w2).
Proof.
  intros T c E Hc Hcomp Hai v w H. split; [intros; exact (su_get Hc Hcomp Hai H i)|]. split; [intros; exact (su_any Hc Hcomp Hai H x)|].
  split; [intros; exact (su_all Hc Hcomp Hai H x)|]. split; [exact (su_hash Hc Hcomp Hai H)|]. split; [exact (su_to_vec Hc Hcomp Hai H)|].
  split; [|intros v2 w2 H2; exact (su_eq Hc Hcomp Hai H H2)]. intros calls. unfold into_iter. rewrite <- (proj1 H). exact (su_iter Hc Hcomp Hai H calls _).
Qed.
(** Reading an element looks at one block and the length only. *)
Theorem C57_get : forall T (c : cfg) (E : enumlike T) v v' i b, len v = len v' -> block_is v (home c E i) b -> block_is v' (home c E i) b ->
  get c E i v' = get c E i v.
Proof.
  intros T c E v v' i b HL H1 H2. destruct (N.le_gt_cases (len v) i) as [G|G].
  - unfold get, get_raw. rewrite <- HL, (proj2 (N.leb_le _ _) G). reflexivity.
  - apply (get_same c E H1 H2); lia.
Qed.
(** Every call but these leaves all the blocks of all the vectors as they are. *)
Theorem C57_writers : forall T (c : cfg) (E : enumlike T) ns o r j, touches c E ns o r j = true ->
  match o with
  | OPush _ _ | OInsert _ _ _ | ORemove _ _ | OSwap _ _ _ | OSwapRemove _ _ | OSet _ _ _ | OResize _ _ _ | OReserve _ _
  | OExtend _ _ | OShrink _ | OAppend _ _ | ORetain _ _ | OForEach _ _ => In r (regs o)
  | _ => False
  end.
Proof.
  intros T c E ns o r j H. destruct o; cbn in *; try discriminate; try (apply andb_prop in H; destruct H as [H _]; apply Nat.eqb_eq in H; auto).
  apply orb_prop in H. destruct H as [H|H]; [apply andb_prop in H; destruct H as [H _]|]; apply Nat.eqb_eq in H; auto.
Qed.
(** A vector of 25 elements of 3 bits, ten per block: set(12, _) changes the middle block only, remove(21)
    and push the last only; reserve and shrink_to_fit change none of the blocks in use. *)
Definition made : list ev := snd (m_run u32_release (fin 5) [] [OFromSlice (map f5 [0;1;2;3;4;0;1;2;3;4;0;1;2;3;4;0;1;2;3;4;0;1;2;3;4])]).
Definition blocks_of (p : list ev) : list (list N) := map (fun v => data (storage v)) p.
Definition block_same (j : N) (o : op (Fin 5)) : bool :=
  match nthN (nth 0 (blocks_of made) []) j, nthN (nth 0 (blocks_of (snd (m_step u32_release (fin 5) made o))) []) j with
  | Some a, Some b => a =? b
  | _, _ => false
  end.
Example C57_example :
  Forall (valid u32_release (fin 5)) made /\ map len made = [25] /\
  (map (fun j => block_same j (OSet 0 12 (f5 0))) [0;1;2] = [true; false; true] /\
   map (touches u32_release (fin 5) [25] (OSet 0 12 (f5 0)) 0) [0;1;2] = [false; true; false]) /\
  (map (fun j => block_same j (ORemove 0 21)) [0;1;2] = [true; true; false] /\
   map (touches u32_release (fin 5) [25] (ORemove 0 21) 0) [0;1;2] = [false; false; true]) /\
  (map (fun j => block_same j (OPush 0 (f5 4))) [0;1;2] = [true; true; false] /\
   map (touches u32_release (fin 5) [25] (OPush 0 (f5 4)) 0) [0;1;2] = [false; false; true]) /\
  (map (fun j => block_same j (OShrink 0)) [0;1;2] = [true; true; true] /\ sane u32_release (fin 5) [25] (OShrink (T := Fin 5) 0) = true /\
   map (touches u32_release (fin 5) [25] (OShrink 0) 0) [0;1;2] = [false; false; false]).
Proof.
  split.
  - assert (H : forallb (validb u32_release (fin 5)) made = true) by (vm_compute; reflexivity). rewrite forallb_forall in H.
    apply Forall_forall. intros v Hv. apply validb_valid, H, Hv.
  - repeat (apply conj); vm_compute; reflexivity.
Qed.
(** A program working on the last two of three blocks; and two vectors with the same blocks in use (the second has a
    spare block full of old elements). *)
Example C57_programs_example :
  let prog := [OSet 0 12 (f5 0); ORemove 0 21; OPush 0 (f5 3); OSwap 0 11 22; OInsert 0 15 (f5 1); OReserve 0 100; OShrink 0; OClone 0; OSet 1 0 (f5 4)] in
  safe_run u32_release (fin 5) made prog = true /\ spared u32_release (fin 5) made prog 0 0 = true /\
  map (fun v => nthN (data (storage v)) 0) made = [Some 591677064] /\
  map (fun v => nthN (data (storage v)) 0) (firstn 1 (snd (m_run u32_release (fin 5) made prog))) = [Some 591677064].
Proof. cbv zeta. repeat (apply conj); vm_compute; reflexivity. Qed.
Example C57_reads_example :
  let long := nth 0 (snd (m_run u32_release (fin 5) made [OTruncate 0 17])) (ev_new u32_release) in
  let short := nth 0 (snd (m_run u32_release (fin 5) made [OTruncate 0 17; OShrink 0])) (ev_new u32_release) in
  same_used u32_release (fin 5) long short /\ map (fun v => vlen (storage v)) [long; short] = [3; 2].
Proof.
  cbv zeta. split; [|vm_compute; reflexivity]. split; [vm_compute; reflexivity|]. intros j Hj.
  assert (G : j < 2). { replace (EPB u32_release (fin 5)) with 10 in Hj by (vm_compute; reflexivity). match type of Hj with _ < ?l => replace l with 17 in Hj by (vm_compute; reflexivity) end. lia. }
  assert (j = 0 \/ j = 1) as [-> | ->] by lia; vm_compute; reflexivity.
Qed.
