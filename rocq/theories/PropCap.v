(** PropCap.v -- C49: only growing calls and shrink_to_fit change the amount of memory a vector
    occupies.  [blocks_of p r], [capacity_of c E p r]: the storage blocks vector r of pool p has
    room for, and its capacity() (Capacity.v). *)
From Verif Require Import MemFacts3 CapFacts PropProg.
Open Scope N_scope.

(** ** one call *)
(** A call that is neither a growing call nor shrink_to_fit leaves the capacity() of every
    vector as it was, whatever its outcome, in every configuration, for every EnumLike
    implementation (lawful or not) and every state of the vectors. *)
Theorem C49_in_place : forall T (c : cfg) (E : enumlike T) p o, in_place o = true ->
  map (fun v => vcap (storage v)) (snd (m_step c E p o)) = map (fun v => vcap (storage v)) p /\
  map (capacity c E) (snd (m_step c E p o)) = map (capacity c E) p.
Proof.
  intros T c E p o H. pose proof (step_in_place c E p o H) as G. split; [exact G|].
  assert (Q : forall l, map (capacity c E) l = map (fun k => N.min (k * EPB c E) (usize_max c)) (map (fun v => vcap (storage v)) l)) by (intros; rewrite map_map; reflexivity).
  rewrite !Q, G. reflexivity.
Qed.
Lemma capacity_mono T c (E : enumlike T) p p' r : (r < length p)%nat -> (r < length p')%nat -> blocks_of p r <= blocks_of p' r -> capacity_of c E p r <= capacity_of c E p' r.
Proof.
  unfold blocks_of, capacity_of. intros H1 H2. apply nth_error_Some in H1, H2. destruct (nth_error p r) as [v|]; [|congruence]. destruct (nth_error p' r) as [v'|]; [|congruence].
  intros H. unfold capacity. assert (vcap (storage v) * EPB c E <= vcap (storage v') * EPB c E) by (apply N.mul_le_mono_r; exact H). lia.
Qed.
(** Only shrink_to_fit on a vector makes its capacity() smaller. *)
Theorem C49_kept : forall T (c : cfg) (E : enumlike T), cfg_ok c -> forall prog p r, (r < length p)%nat ->
  forallb (fun o => negb (shrinks r o)) prog = true ->
  blocks_of p r <= blocks_of (snd (m_run c E p prog)) r /\ capacity_of c E p r <= capacity_of c E (snd (m_run c E p prog)) r.
Proof. intros T c E Hc prog p r Hr Hs. destruct (run_kept E Hc prog p Hr Hs) as [H1 H2]. split; [exact H2|exact (capacity_mono _ c E _ _ _ Hr H1 H2)]. Qed.

(** ** reallocations are rare *)
(** With a container that doubles when it grows, a program that does not shrink vector r moves
    it to a new allocation at most as often as its capacity can be doubled. *)
Theorem C49_moves : forall T (c : cfg) (E : enumlike T), cfg_ok c -> doubling c -> forall prog p r, (r < length p)%nat ->
  forallb (fun o => negb (shrinks r o)) prog = true ->
  2 ^ moves c E r p prog * blocks_of p r <= blocks_of (snd (m_run c E p prog)) r /\
  2 ^ moves c E r p prog <= 2 * N.max 1 (blocks_of (snd (m_run c E p prog)) r).
Proof. intros T c E Hc Hd prog p r Hr Hs. exact (run_moves E Hc Hd prog p Hr Hs). Qed.
(** Pushing elements one by one onto a new vector occupies at most twice the blocks needed (or 8
    blocks), moves it logarithmically often, and copies no more blocks in total than that. *)
Theorem C49_pushes : forall T (c : cfg) (E : enumlike T), cfg_ok c -> admits c E -> doubling c -> frugal c ->
  forall p r xs, nth_error p r = Some (ev_new c) ->
  let room := N.max 8 (2 * (lenN xs / EPB c E + 1)) in
  blocks_of (snd (m_run c E p (map (OPush r) xs))) r <= room /\
  2 ^ moves c E r p (map (OPush r) xs) <= 2 * room /\
  copied c E r p (map (OPush r) xs) <= room.
Proof.
  intros T c E Hc Ha Hd Hf p r xs Hn room. destruct (pushes (E := E) Hc Ha Hd Hf r xs p Hn (lean_new c E)) as (v' & H1 & (H2 & H3 & H4) & H5 & H6).
  assert (Hr : (r < length p)%nat) by (apply nth_error_Some; congruence).
  assert (Hp : forallb (fun o : op T => negb (shrinks r o)) (map (OPush r) xs) = true) by (apply forallb_forall; intros o Ho; apply in_map_iff in Ho; destruct Ho as (x & <- & _); reflexivity).
  destruct (run_moves E Hc Hd _ _ Hr Hp) as [_ M]. assert (B : blocks_of (snd (m_run c E p (map (OPush r) xs))) r = vcap (storage v')) by (unfold blocks_of; rewrite H1; reflexivity).
  rewrite B in *. change (len (ev_new c)) with 0 in H5. rewrite N.add_0_l in H5.
  assert (len v' / EPB c E <= lenN xs / EPB c E) by (apply N.div_le_mono; [pose proof (EPB_pos Hc (proj1 Ha)); lia|exact H5]).
  unfold room. split; [lia|]. split; [lia|]. lia.
Qed.

(** Rust's growth policy satisfies the assumptions *)
Lemma std_doubling w usz debug sm amax : doubling (std_cfg w usz debug sm amax) /\ frugal (std_cfg w usz debug sm amax).
Proof. split; intros cap need H; cbn; lia. Qed.
(** 1000 pushes of 3-bit elements (100 blocks) one by one, followed by calls that keep the memory *)
Example C49_example :
  let prog := map (OPush 0) (repeat (f5 3) 1000) in
  let p := snd (m_run u32_debug (fin 5) [ev_new u32_debug] prog) in
  moves u32_debug (fin 5) 0 [ev_new u32_debug] prog = 8 /\ blocks_of p 0 = 128 /\ copied u32_debug (fin 5) 0 [ev_new u32_debug] prog = 127 /\
  capacity_of u32_debug (fin 5) p 0 = 1280 /\
  capacity_of u32_debug (fin 5) (snd (m_run u32_debug (fin 5) p [OTruncate 0 7; ORemove 0 9; OClear 0; OPop 0])) 0 = 1280 /\
  capacity_of u32_debug (fin 5) (snd (m_run u32_debug (fin 5) p [OTruncate 0 7; OShrink 0])) 0 = 10.
Proof. vm_compute. repeat split. Qed.
