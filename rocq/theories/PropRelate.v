(** PropRelate.v -- C56: only the numbers of the elements matter. *)
From Verif Require Import RelateFacts Witness EnumSpec DeriveFacts.
Open Scope N_scope.

(** ** C56 *)
(** Two element types that number corresponding values alike: any call, on any vectors -- valid or not --, with corresponding elements
    has the corresponding outcome and leaves the same bits, length and capacity. *)
Theorem C56_call : forall T1 T2 (c : cfg) (R : T1 -> T2 -> Prop) (E1 : enumlike T1) (E2 : enumlike T2), same_numbering R E1 E2 ->
  forall p o1 o2, rel_op R o1 o2 ->
  rel_out R (fst (m_step c E1 p o1)) (fst (m_step c E2 p o2)) /\ snd (m_step c E1 p o1) = snd (m_step c E2 p o2).
Proof. intros T1 T2 c R E1 E2 H p o1 o2 Ho. exact (r_step (c := c) H p Ho). Qed.
(** The same for programs, *)
Theorem C56_program : forall T1 T2 (c : cfg) (R : T1 -> T2 -> Prop) (E1 : enumlike T1) (E2 : enumlike T2), same_numbering R E1 E2 ->
  forall prog1 prog2, Forall2 (rel_op R) prog1 prog2 -> forall p,
  Forall2 (rel_out R) (fst (m_run c E1 p prog1)) (fst (m_run c E2 p prog2)) /\ snd (m_run c E1 p prog1) = snd (m_run c E2 p prog2).
Proof. intros T1 T2 c R E1 E2 H prog1 prog2 Hp p. exact (r_run (c := c) H Hp p). Qed.
(** and for clients that choose each call from the answers so far. *)
Theorem C56_client : forall T1 T2 (c : cfg) (R : T1 -> T2 -> Prop) (E1 : enumlike T1) (E2 : enumlike T2), same_numbering R E1 E2 ->
  forall k1 k2, rel_client R k1 k2 -> forall n p, Forall2 (rel_out R) (m_play c E1 n k1 [] p) (m_play c E2 n k2 [] p).
Proof. intros T1 T2 c R E1 E2 H k1 k2 Hk n p. exact (r_play (c := c) H n Hk p (Forall2_nil _)). Qed.
(** It is enough that the types obey the contract, use every number below NUM_VARIANTS and panic at the others (if there are
    any of that many bits). *)
Theorem C56_numbering : forall T1 T2 (E1 : enumlike T1) (E2 : enumlike T2), lawful E1 -> lawful E2 -> complete E1 -> complete E2 -> nv E1 = nv E2 ->
  (forall d, nv E1 <= d < 2 ^ BITS E1 -> from_d E1 d = None /\ from_d E2 d = None) ->
  same_numbering (fun x y => to_d E1 x = to_d E2 y) E1 E2.
Proof.
  intros T1 T2 E1 E2 [_ L1] [_ L2] K1 K2 Hn Hp. split; [exact Hn|]. split; [auto|]. intros d Hd.
  destruct (N.lt_ge_cases d (nv E1)) as [Hlt|Hge].
  - destruct (K1 d Hlt) as [x Hx]. rewrite Hn in Hlt. destruct (K2 d Hlt) as [y Hy].
    pose proof (L1 x) as G1. pose proof (L2 y) as G2. rewrite Hx in G1. rewrite Hy in G2. rewrite G1, G2. cbn. congruence.
  - destruct (Hp d (conj Hge Hd)) as [-> ->]. exact Logic.I.
Qed.

Lemma bits2 c : cfg_ok c -> 2 <= usize_bits c.
Proof. intros H. destruct (ok_usize H) as [->| ->]; lia. Qed.
(** In particular when the number of values is a power of two: then there are no other numbers.  For the types of enum_like: *)
Theorem C56_crate_types : forall (c : cfg) t1 t2 n, cfg_ok c -> num_variants_of c t1 = Some n -> num_variants_of c t2 = Some n ->
  no_holes t1 = true -> no_holes t2 = true -> n = 2 ^ BITS (el c t1) ->
  same_numbering (fun x y => to_d (el c t1) x = to_d (el c t2) y) (el c t1) (el c t2).
Proof.
  intros c t1 t2 n Hc H1 H2 K1 K2 Hn. pose proof (el_nv (@bits2 c Hc) H1) as N1. pose proof (el_nv (@bits2 c Hc) H2) as N2.
  apply C56_numbering.
  - exact (el_lawful (@bits2 c Hc) H1).
  - exact (el_lawful (@bits2 c Hc) H2).
  - exact (el_complete (@bits2 c Hc) H1 K1).
  - exact (el_complete (@bits2 c Hc) H2 K2).
  - congruence.
  - intros d [L U]. exfalso. lia.
Qed.
Example C56_crate_example : num_variants_of u32_debug (TTuple [TBool; TBool]) = Some 4 /\ num_variants_of u32_debug (TArray 2 TBool) = Some 4 /\
  num_variants_of u32_debug (TOption (TUser 3 [])) = Some 4 /\ (4 = 2 ^ BITS (el u32_debug (TTuple [TBool; TBool]))).
Proof. repeat split; vm_compute; reflexivity. Qed.

(** (bool, bool) and an enum of four variants *)
Definition bb : enumlike (bool * bool) := {| nv := 4; to_d := fun x : bool * bool => (if fst x then 1 else 0) + 2 * (if snd x then 1 else 0);
  from_d := fun d => if d <? 4 then Some (N.odd d, 2 <=? d) else None |}.
Lemma bb_fin4 : same_numbering (fun x y => to_d bb x = to_d (fin 4) y) bb (fin 4).
Proof.
  apply C56_numbering.
  - split; intros [[|] [|]]; vm_compute; reflexivity.
  - apply fin_lawful.
  - intros d Hd. exists (N.odd d, 2 <=? d). cbn in Hd. assert (C : d = 0 \/ d = 1 \/ d = 2 \/ d = 3) by lia. destruct C as [C|[C|[C|C]]]; subst d; reflexivity.
  - intros d Hd. cbn in Hd. exists (f4 d). assert (C : d = 0 \/ d = 1 \/ d = 2 \/ d = 3) by lia. destruct C as [C|[C|[C|C]]]; subst d; vm_compute; reflexivity.
  - reflexivity.
  - intros d [H1 H2]. exfalso. change (nv bb) with 4 in H1. assert (HB : 2 ^ BITS bb = 4) by (vm_compute; reflexivity). rewrite HB in H2. lia.
Qed.
Definition in_pairs (f : N -> bool * bool) : list (op (bool * bool)) :=
  [OFromSlice [f 1; f 2; f 3]; OPush 0 (f 1); OInsert 0 1 (f 2); ORetain 0 (fun seen x => Some (negb (fst x))); OSet 0 7 (f 0); OResize 0 20 (f 3); ORemove 0 0; OClone 0; OToVec 1].
Definition in_fin (f : N -> Fin 4) : list (op (Fin 4)) :=
  [OFromSlice [f 1; f 2; f 3]; OPush 0 (f 1); OInsert 0 1 (f 2); ORetain 0 (fun seen x => Some (negb (N.odd (to_d (fin 4) x)))); OSet 0 7 (f 0); OResize 0 20 (f 3); ORemove 0 0; OClone 0; OToVec 1].
Example C56_example : same_numbering (fun x y => to_d bb x = to_d (fin 4) y) bb (fin 4) /\
  Forall2 (rel_op (fun x y => to_d bb x = to_d (fin 4) y)) (in_pairs (fun d => (N.odd d, 2 <=? d))) (in_fin f4) /\
  length (snd (m_run u32_debug bb [] (in_pairs (fun d => (N.odd d, 2 <=? d))))) = 2%nat /\
  nth_error (fst (m_run u32_debug bb [] (in_pairs (fun d => (N.odd d, 2 <=? d))))) 4 = Some (MRes RPanic).
Proof.
  split; [exact bb_fin4|]. split; [|split; vm_compute; reflexivity].
  unfold in_pairs, in_fin. repeat apply Forall2_cons; try apply Forall2_nil; constructor; try (vm_compute; reflexivity).
  - repeat constructor; vm_compute; reflexivity.
  - intros l m [a b] y _ Hy. f_equal. f_equal. cbn [fst]. rewrite <- Hy. destruct a, b; reflexivity.
Qed.
