(** PropUserExact.v -- C55: exactly what push and insert leave behind when to_discr panics. *)
From Verif Require Import UserTruth3 ExtendExact Witness PropUser.
From Coq Require Import ZifyBool ZifyNat ZifyN.
Open Scope N_scope.

Section UserExact.
  Context {T : Type} {c : cfg} {E : enumlike T}.
  Hypothesis Hs : setting c E.
  Local Notation Hc := (s_ok Hs).
  Local Notation Hcomp := (s_comp Hs).
  Local Notation Hd := (s_d Hs).
  Local Notation P := (EPB c E).
  Local Notation slotv := (slotv c E).

  Lemma grow_slots v : WF c E v -> okr (fun _ v' => forall i, slotv v' i = slotv v i) (fun _ _ => True) (grow_if_needed c E v).
  Proof.
    intros H. unfold grow_if_needed. destruct (_ && _); [|cbn; reflexivity]. unfold on_storage, vec_push.
    destruct (vec_ensure_cases Hc Hcomp Hd (vlen (storage v) + 1) (wf_alloc H)) as [[cap' [-> _]]|[->| ->]]; cbn; [|exact Logic.I|exact Logic.I].
    intros i. unfold EvFacts.slotv; cbn. destruct (N.lt_ge_cases (i / P) (lenN (data (storage v)))) as [Hlt|Hge].
    - rewrite nthN_app_l by exact Hlt. reflexivity.
    - rewrite nthN_app_r by exact Hge. rewrite (nthN_ge_None Hge). destruct (nthN [0] (i / P - lenN (data (storage v)))) as [b|] eqn:Hb; [|reflexivity].
      assert (b = 0). { unfold nthN in Hb. destruct (N.to_nat (i / P - lenN (data (storage v)))) as [|[|n]]; cbn in Hb; congruence. }
      subst b. unfold slot. rewrite N.shiftr_0_l. apply N.land_0_l.
  Qed.
  Lemma grow_room cl v ds : OpFacts.RC c E cl v ds -> num v < P * vlen (storage v) -> grow_if_needed c E v = (Ret tt, v).
  Proof.
    intros H Hn. unfold grow_if_needed, len. destruct (N.eqb_spec (num v mod P) 0) as [Hm|Hm]; cbn [andb]; [|reflexivity].
    pose proof (Ppos Hc Hcomp Hd) as HP. pose proof (RC_max Hc Hcomp Hd H) as Hmx. pose proof (rc_num H) as Hn0. rewrite (blocks_for_aligned Hc Hcomp) by lia.
    destruct (N.eqb_spec (num v / P) (vlen (storage v))) as [He|He]; [|reflexivity]. exfalso. rewrite <- He in Hn.
    pose proof (N.div_mod (num v) P ltac:(lia)). lia.
  Qed.
  Lemma push_panics_room U (X : usercode U T) cl ds v u x k : truthful E X -> OpFacts.RC c E cl v ds -> num v < P * vlen (storage v) -> num v + 1 <= usize_max c ->
    fst (u_to X x u) = Panic k -> w_push c X x (v, u) = (Panic k, (mkEv (storage v) (num v + 1), snd (u_to X x u))).
  Proof.
    intros Ht H Hn Hm Hk. assert (Hsh : shape X = bare E) by (unfold shape, bare; rewrite (proj1 Ht); reflexivity).
    unfold w_push. rewrite Hsh. change (grow_if_needed c (bare E)) with (grow_if_needed c E).
    unfold self at 1, on_fst. unfold bind at 1. cbn [fst snd]. rewrite (grow_room cl v ds H Hn). unfold self_get, reads. unfold bind at 1. cbn [fst].
    unfold lift. unfold bind at 1. rewrite (proj2 (N.leb_le _ _) Hm). unfold self, on_fst, set_len. unfold bind at 1. cbn [fst snd]. unfold w_set, user, on_snd. unfold bind. cbn [fst snd].
    destruct (u_to X x u) as [r u'] eqn:Eu. cbn in Hk. subst r. reflexivity.
  Qed.
  Lemma push_panics U (X : usercode U T) v u l x k : truthful E X -> holds c E v l -> fst (u_to X x u) = Panic k ->
    okr (fun _ _ => False)
      (fun k' s' => (no_room k' /\ holds c E (fst s') l /\ snd s' = u) \/
         (k' = k /\ snd s' = snd (u_to X x u) /\ valid c E (fst s') /\ len (fst s') = lenN l + 1 /\
          forall j, j <= lenN l -> get_raw c E j (fst s') = Ret (Some (slotv v j))))
      (w_push c X x (v, u)).
  Proof.
    intros Ht H0 Hk. assert (H := H0). apply (holds_RC Hs) in H.
    assert (Hsh : shape X = bare E) by (unfold shape, bare; rewrite (proj1 Ht); reflexivity).
    unfold w_push. rewrite Hsh. change (grow_if_needed c (bare E)) with (grow_if_needed c E). unfold self at 1, on_fst. unfold bind at 1. cbn [fst snd].
    pose proof (OpFacts.RC_grow Hc Hcomp Hd H) as G. pose proof (grow_slots v (rc_wf H)) as GS.
    destruct (grow_if_needed c E v) as [[[]|k1| |] v1] eqn:Eg; cbn [okr] in G, GS |- *; try contradiction; [|left; destruct G as [-> ->]; cbn; unfold no_room; auto|exact Logic.I].
    destruct G as [G1 [G2 G3]]. unfold self_get, reads. unfold bind at 1. cbn [fst].
    unfold lift. unfold bind at 1. destruct (N.leb_spec (num v1 + 1) (usize_max c)) as [Hle|Hgt].
    2:{ cbn. left. split; [right; reflexivity|]. split; [|reflexivity]. apply (holds_RC Hs). exact G1. }
    unfold self, on_fst, set_len. unfold bind at 1. cbn [fst snd]. unfold w_set, user, on_snd. unfold bind. cbn [fst snd].
    destruct (u_to X x u) as [r u'] eqn:Eu. cbn in Hk. subst r. cbn [okr fst snd]. right. split; [reflexivity|]. split; [reflexivity|].
    destruct (RC_set_len Hc Hcomp Hd G1 (n := num v1 + 1)) as [junk [Hj _]]; [lia|exact Hle|].
    split; [apply WF_valid; exact (rc_wf Hj)|]. pose proof (rc_num H) as Hn. rewrite lenN_map in Hn.
    split; [unfold len; cbn [num]; lia|].
    intros j Hj2. rewrite (get_raw_slot Hs (rc_wf Hj)) by (cbn [num]; lia). do 2 f_equal. rewrite <- GS. reflexivity.
  Qed.
End UserExact.

(** ** C55, exactly *)
(** A push or insert whose to_discr panics with k: either there was no room, and the elements are the same; or the vector has one more element,
    the bits that the storage had there (0 in a new block). *)
Theorem C55_push_exact : forall U T (c : cfg) (E : enumlike T) (X : usercode U T), setting c E -> truthful E X ->
  forall v u l x k, holds c E v l -> fst (u_to X x u) = Panic k ->
  result (w_push c X x (v, u)) (fun _ _ => False)
    (fun k' s' => (no_room k' /\ holds c E (fst s') l /\ snd s' = u) \/
      (k' = k /\ snd s' = snd (u_to X x u) /\ valid c E (fst s') /\ len (fst s') = lenN l + 1 /\
       forall j, j <= lenN l -> get_raw c E j (fst s') = Ret (Some
         match l_get l j with
         | Some y => to_d E y
         | None => match l_get (storage_blocks v) (j / EPB c E) with
                   | Some b => field (BITS E) b (j mod EPB c E)
                   | None => 0
                   end
         end))).
Proof.
  intros U T c E X Hs Ht v u l x k H Hk. apply result_okr.
  eapply okr_mono; [exact (push_panics Hs U X v u l x k Ht H Hk)|intros a s' []|].
  intros k' s' [G|[G1 [G2 [G3 [G4 G5]]]]]; [left; exact G|]. right. split; [exact G1|]. split; [exact G2|]. split; [exact G3|]. split; [exact G4|].
  intros j Hj. rewrite (G5 j Hj). do 2 f_equal. apply (holds_RC Hs) in H. unfold l_get at 1.
  destruct (nth_error l (N.to_nat j)) as [y|] eqn:Hy.
  - apply (rc_slot H). rewrite nthN_map. unfold nthN. rewrite Hy. reflexivity.
  - unfold EvFacts.slotv, l_get, storage_blocks, nthN. destruct (nth_error (data (storage v)) (N.to_nat (j / EPB c E))) as [b|]; [apply slot_field|reflexivity].
Qed.
Theorem C55_insert_exact : forall U T (c : cfg) (E : enumlike T) (X : usercode U T), setting c E -> truthful E X ->
  forall v u l i x k, holds c E v l -> fst (u_to X x u) = Panic k -> w_insert c X i x (v, u) = w_push c X x (v, u).
Proof.
  intros U T c E X Hs Ht v u l i x k H Hk. pose proof (push_panics Hs U X v u l x k Ht H Hk) as G.
  unfold w_insert, bind at 1. destruct (w_push c X x (v, u)) as [[[]|k'| |] s']; cbn in G; try contradiction; reflexivity.
Qed.
(** So a push that panics undoes a pop: the vector, bit for bit, is the one before the pop. *)
Theorem C55_pop_push_exact : forall U T (c : cfg) (E : enumlike T) (X : usercode U T), setting c E -> truthful E X ->
  forall v u l y x k, holds c E v (l ++ [y]) -> fst (u_to X x u) = Panic k ->
  exists v1, pop c E v = (Ret (Some y), v1) /\ holds c E v1 l /\ w_push c X x (v1, u) = (Panic k, (v, snd (u_to X x u))).
Proof.
  intros U T c E X Hs Ht v u l y x k H Hk. destruct (pop_some Hs H) as [v1 [H1 G1]]. exists v1. split; [exact H1|]. split; [exact G1|].
  pose proof (holds_len Hs H) as HL. rewrite lenN_app in HL. change (lenN [y]) with 1 in HL. unfold len in HL.
  assert (E1 : v1 = mkEv (storage v) (lenN l)).
  { pose proof (holds_len Hs G1) as HL1. unfold len in HL1.
    assert (S1 : storage v1 = storage v).
    { revert H1. unfold pop. destruct (is_empty v); [discriminate|]. unfold bind, lift, reads.
      destruct (usub c (num v) 1) as [i|?| |]; try discriminate. destruct (let! r := get c E i v in unwrap r) as [z|?| |]; try discriminate.
      unfold set_len, ret. intros G. injection G as _ <-. reflexivity. }
    destruct v1 as [s n]. cbn in *. congruence. }
  apply (holds_RC Hs) in H, G1. pose proof (RC_cover (s_ok Hs) (s_comp Hs) (s_d Hs) H) as Hc. pose proof (RC_max (s_ok Hs) (s_comp Hs) (s_d Hs) H) as Hm.
  pose proof (rc_num H) as Hn. rewrite lenN_map, lenN_app in *. change (lenN [y]) with 1 in *.
  rewrite (push_panics_room Hs U X _ _ v1 u x k Ht G1); [|subst v1; cbn [num storage]; lia|subst v1; cbn [num]; lia|exact Hk].
  subst v1. cbn [num storage]. rewrite <- Hn. destruct v; reflexivity.
Qed.
(** Elements of Fin 4 whose to_discr panics when it is asked once more than allowed (PropUser.v). *)
Example C55_exact_example : exists k, setting u32_debug (fin 4) /\ truthful (fin 4) (@shy N) /\ holds u32_debug (fin 4) v5 ([f4 1; f4 2; f4 3; f4 2] ++ [f4 0]) /\
  (forall x, fst (u_to (@shy N) x (0, [])) = Panic k).
Proof.
  exists PUser. split; [apply fin_setting; [apply u32_debug_ok|reflexivity|discriminate]|]. split; [apply shy_truthful|]. split; [exact v5_holds|]. reflexivity.
Qed.
