(** WideFacts.v -- writing a number that does not fit in an element. *)
From Verif Require Import ProgFacts.
From Coq Require Import ZifyBool ZifyNat ZifyN.
Open Scope N_scope.
Set Implicit Arguments.
Unset Strict Implicit.

Section Wide.
  Context {T : Type} {c : cfg} {E : enumlike T}.
  Local Notation B := (BITS E).
  Local Notation P := (EPB c E).
  Hypothesis Hc : cfg_ok c.
  Hypothesis Hcomp : compiles c E = true.

  Lemma part_testbit d m n : N.testbit ((d / 2 ^ m) mod 2 ^ B) n = (n <? B) && N.testbit d (n + m).
  Proof. rewrite testbit_mod_pow2. f_equal. rewrite <- N.shiftr_div_pow2. apply testbit_shiftr. Qed.

  Lemma slot_set_slot_any b k d j : k < P -> j < P -> b < 2 ^ W c ->
    slot E (set_slot c E b k d) j =
    if k <=? j then N.lor (if j =? k then 0 else slot E b j) ((d / 2 ^ ((j - k) * B)) mod 2 ^ B) else slot E b j.
  Proof.
    intros Hk Hj Hb. pose proof (BITS_range Hc Hcomp) as [HB _]. pose proof (slot_off Hc Hcomp Hj) as Hoj. pose proof (slot_off Hc Hcomp Hk) as Hok.
    apply N.bits_inj; intros m. rewrite slot_testbit. destruct (N.ltb_spec m B) as [Hm|Hm]; cbn [andb].
    2:{ destruct (N.leb_spec k j); [rewrite N.lor_spec, part_testbit|rewrite slot_testbit];
        rewrite (proj2 (N.ltb_ge m B)) by exact Hm; cbn [andb]; [|reflexivity]. rewrite orb_false_r.
        destruct (N.eqb_spec j k); [symmetry; apply N.bits_0|]. rewrite slot_testbit, (proj2 (N.ltb_ge m B)) by exact Hm. reflexivity. }
    unfold set_slot, bnot, cast_block.
    rewrite N.lor_spec, N.land_spec, testbit_lnot, !testbit_mod_pow2, !testbit_shiftl, testbit_ones, testbit_mod_pow2.
    destruct (N.ltb_spec (j * B + m) (W c)) as [HW|HW]; [|lia]. cbn [andb xorb].
    destruct (N.leb_spec k j) as [Hkj|Hkj].
    - rewrite N.lor_spec, part_testbit, (proj2 (N.ltb_lt m B)) by exact Hm. cbn [andb].
      destruct (N.leb_spec (k * B) (j * B + m)) as [H1|H1]; [|nia]. cbn [andb].
      destruct (N.ltb_spec (j * B + m - k * B) (W c)) as [H2|H2]; [|lia]. cbn [andb].
      replace (m + (j - k) * B) with (j * B + m - k * B) by nia. f_equal.
      destruct (N.eqb_spec j k) as [->|Hne].
      + rewrite N.bits_0. destruct (N.ltb_spec (k * B + m - k * B) B); [|lia]. apply andb_false_r.
      + rewrite slot_testbit, (proj2 (N.ltb_lt m B)) by exact Hm. cbn [andb].
        destruct (N.ltb_spec (j * B + m - k * B) B); [nia|]. apply andb_true_r.
    - destruct (N.leb_spec (k * B) (j * B + m)) as [H1|H1]; [nia|]. cbn [andb]. rewrite orb_false_r, andb_true_r.
      rewrite slot_testbit, (proj2 (N.ltb_lt m B)) by exact Hm. reflexivity.
  Qed.

  (** what becomes of number old in slot j when d is written to slot i *)
  Lemma slotv_set_any v i d j : Forall (fun b => b < 2 ^ W c) (data (storage v)) -> i < P * vlen (storage v) ->
    slotv c E (set_at c E v i d) j =
    if (j / P =? i / P) && (i <=? j) then N.lor (if j =? i then 0 else slotv c E v j) ((d / 2 ^ ((j - i) * B)) mod 2 ^ B) else slotv c E v j.
  Proof.
    intros HF Hi. pose proof (EPB_pos Hc Hcomp) as HP. pose proof (divP_lt Hc Hcomp Hi) as Hw. destruct (nthN_lt_Some Hw) as [b Hb].
    unfold slotv, set_at. rewrite Hb. cbn [storage data set_data]. rewrite nthN_updN, N.eqb_sym.
    destruct (N.eqb_spec (j / P) (i / P)) as [Heq|Hne]; cbn [andb]; [|reflexivity].
    destruct (N.ltb_spec (i / P) (lenN (data (storage v)))) as [_|Hx]; [|unfold vlen in Hw; lia].
    rewrite slot_set_slot_any by (try (apply N.mod_lt; lia); apply (Forall_nthN HF Hb)). rewrite Heq, Hb.
    pose proof (N.div_mod i P ltac:(lia)) as Di. pose proof (N.div_mod j P ltac:(lia)) as Dj. rewrite Heq in Dj.
    assert (E1 : (i mod P <=? j mod P) = (i <=? j)) by (destruct (N.leb_spec (i mod P) (j mod P)), (N.leb_spec i j); lia).
    assert (E2 : (j mod P =? i mod P) = (j =? i)) by (destruct (N.eqb_spec (j mod P) (i mod P)), (N.eqb_spec j i); lia).
    assert (E3 : j mod P - i mod P = j - i) by lia. rewrite E1, E2, E3. reflexivity.
  Qed.

  Lemma raw_write_any v i d : valid c E v -> i < P * vlen (storage v) ->
    exists v', set_raw_unchecked c E i d v = (Ret tt, v') /\ valid c E v' /\ len v' = len v /\ vlen (storage v') = vlen (storage v) /\
    forall j old, j < P * vlen (storage v) -> get_raw_unchecked c E j v = Ret old ->
      get_raw_unchecked c E j v' =
      Ret (if (j / P =? i / P) && (i <=? j) then N.lor (if j =? i then 0 else old) ((d / 2 ^ ((j - i) * B)) mod 2 ^ B) else old).
  Proof.
    intros Hv Hi. apply WF_valid in Hv. exists (set_at c E v i d). split; [apply (set_raw_unchecked_spec Hc Hcomp); exact Hi|].
    split; [apply WF_valid; apply (WF_set_at Hc Hcomp); exact Hv|]. split; [apply (num_set_at Hc Hcomp)|]. split; [apply (vlen_set_at Hc Hcomp)|].
    intros j old Hj Hold. rewrite (get_raw_unchecked_spec Hc Hcomp) in Hold by exact Hj. injection Hold as <-.
    rewrite (get_raw_unchecked_spec Hc Hcomp) by (rewrite (vlen_set_at Hc Hcomp); exact Hj). rewrite slotv_set_any; [reflexivity|apply Hv|exact Hi].
  Qed.

  Lemma get_raw_in v j : WF c E v -> j < num v -> get_raw c E j v = Ret (Some (slotv c E v j)).
  Proof.
    intros Hw Hj. unfold get_raw, len. rewrite (proj2 (N.leb_gt _ _) Hj). pose proof (wf_cover Hw).
    rewrite (get_raw_unchecked_spec Hc Hcomp) by lia. reflexivity.
  Qed.

  (** types with more than 2^32 values: numbers have at most twice the bits of an element *)
  Hypothesis Hwide : 2 ^ 32 < nv E.
  Hypothesis Hfit : nv E <= usize_max c.
  Hypothesis Hl : forall x, to_d E x < nv E.
  Lemma wide_B : B = 32. Proof using Hc Hcomp Hwide. apply (width_32 Hc Hcomp Hwide). Qed.
  Lemma wide_d x : to_d E x < 2 ^ 64.
  Proof.
    pose proof (Hl x). unfold usize_max, N.ones in Hfit. assert (2 ^ usize_bits c <= 2 ^ 64) by (apply pow2_le; destruct (ok_usize Hc); lia). lia.
  Qed.
  Lemma spill x i j : i <= j -> (to_d E x / 2 ^ ((j - i) * B)) mod 2 ^ B = if j =? i then to_d E x mod 2 ^ 32 else if j =? i + 1 then to_d E x / 2 ^ 32 else 0.
  Proof.
    intros Hij. rewrite wide_B. pose proof (wide_d x) as Hx. destruct (N.eqb_spec j i) as [->|Hne].
    - rewrite N.sub_diag, N.mul_0_l, N.pow_0_r, N.div_1_r. reflexivity.
    - destruct (N.eqb_spec j (i + 1)) as [->|Hne2].
      + replace (i + 1 - i) with 1 by lia. rewrite N.mul_1_l. apply N.mod_small. apply N.div_lt_upper_bound; [discriminate|]. exact Hx.
      + rewrite N.div_small; [reflexivity|]. apply N.lt_le_trans with (2 ^ 64); [exact Hx|]. apply pow2_le. lia.
  Qed.
  Lemma set_wide v i x : valid c E v -> i < len v ->
    exists v', set c E i x v = (Ret tt, v') /\ valid c E v' /\ len v' = len v /\
    forall j old, get_raw c E j v = Ret (Some old) -> get_raw c E j v' = Ret (Some
      (if j =? i then to_d E x mod 2 ^ 32
       else if (j =? i + 1) && (j / P =? i / P) then N.lor old (to_d E x / 2 ^ 32)
       else old)).
  Proof.
    intros Hv Hi. apply WF_valid in Hv. pose proof (wf_cover Hv) as Hcov. unfold len in Hi. exists (set_at c E v i (to_d E x)). split.
    - unfold set, set_raw, len. rewrite (proj2 (N.leb_gt _ _) Hi). apply (set_raw_unchecked_spec Hc Hcomp). lia.
    - split; [apply WF_valid; apply (WF_set_at Hc Hcomp); exact Hv|]. split; [apply (num_set_at Hc Hcomp)|].
      intros j old Hold. assert (Hj : j < num v).
      { destruct (N.lt_ge_cases j (num v)) as [H|H]; [exact H|]. unfold get_raw, len in Hold. rewrite (proj2 (N.leb_le _ _) H) in Hold. discriminate. }
      rewrite (get_raw_in Hv Hj) in Hold. injection Hold as <-.
      rewrite get_raw_in; [|apply (WF_set_at Hc Hcomp); exact Hv|rewrite (num_set_at Hc Hcomp); exact Hj].
      rewrite slotv_set_any; [|apply Hv|lia]. destruct (N.leb_spec i j) as [Hij|Hij].
      + rewrite (spill x Hij), andb_true_r. destruct (N.eqb_spec j i) as [->|Hne]; [rewrite N.eqb_refl; reflexivity|].
        destruct (N.eqb_spec (j / P) (i / P)); [|rewrite andb_false_r; reflexivity]. rewrite andb_true_r.
        destruct (N.eqb_spec j (i + 1)); [reflexivity|]. rewrite N.lor_0_r. reflexivity.
      + rewrite andb_false_r. destruct (N.eqb_spec j i); [lia|]. destruct (N.eqb_spec j (i + 1)); [lia|]. reflexivity.
  Qed.
  Lemma push_wide v x : roomy c -> valid c E v ->
    result (push c E x v)
      (fun _ v' => valid c E v' /\ len v' = len v + 1 /\ get_raw c E (len v) v' = Ret (Some (to_d E x mod 2 ^ 32)) /\
         forall j, j < len v -> get_raw c E j v' = get_raw c E j v)
      (fun k v' => k = PCapacity /\ v' = v).
  Proof.
    intros Hr Hv. apply WF_valid in Hv.
    pose (E' := {| nv := nv E; to_d := fun x => to_d E x mod 2 ^ 32; from_d := from_d E |} : enumlike T).
    assert (Hd' : forall x, to_d E' x < 2 ^ BITS E') by (intros y; change (BITS E') with B; rewrite wide_B; apply N.mod_lt; discriminate).
    assert (Hcomp' : compiles c E' = true) by exact Hcomp.
    assert (Hv' : WF c E' v) by (destruct Hv; constructor; assumption).
    pose proof (WF_RC Hc Hcomp' Hd' Hv') as HR. pose proof (RC_grow Hc Hcomp' Hd' HR) as Hg.
    change (grow_if_needed c E' v) with (grow_if_needed c E v) in Hg. change (EPB c E') with P in Hg.
    pose proof (roomy_num Hc Hcomp Hr Hv) as Hsm. pose proof (W8 Hc Hcomp' Hd') as HW8.
    change (okr (fun _ v' => valid c E v' /\ len v' = len v + 1 /\ get_raw c E (len v) v' = Ret (Some (to_d E x mod 2 ^ 32)) /\
         forall j, j < len v -> get_raw c E j v' = get_raw c E j v) (fun k v' => k = PCapacity /\ v' = v) (push c E x v)).
    unfold push. eapply okr_bind_mono; [exact Hg| |auto]. intros _ v1 [H1 [Hn Hlt]].
    eapply okr_reads; [reflexivity|]. rewrite Hn.
    eapply okr_lift. { destruct (N.leb_spec (num v + 1) (usize_max c)) as [_|Hx]; [reflexivity|lia]. }
    unfold bind at 1, set_len. set (v2 := mkEv (storage v1) (num v + 1)).
    assert (W1 : WF c E v1) by (destruct (rc_wf H1); constructor; assumption).
    assert (W2 : WF c E v2) by (destruct W1; constructor; cbn in *; try assumption; lia).
    destruct (@set_wide v2 (num v) x) as [v3 [E3 [V3 [L3 G3]]]]; [apply WF_valid; exact W2|unfold len; cbn; lia|].
    rewrite E3. cbn [okr]. split; [exact V3|]. split; [rewrite L3; reflexivity|].
    split.
    - unfold len. erewrite G3 by (apply get_raw_in; [exact W2|cbn; lia]). rewrite N.eqb_refl. reflexivity.
    - intros j Hj. unfold len in Hj. erewrite G3 by (apply get_raw_in; [exact W2|cbn; lia]).
      destruct (N.eqb_spec j (num v)); [lia|]. destruct (N.eqb_spec j (num v + 1)); [lia|]. cbn [andb].
      rewrite (get_raw_in Hv Hj). do 2 f_equal. change (slotv c E v2 j) with (slotv c E' v1 j). change (slotv c E v j) with (slotv c E' v j).
      destruct (@nthN_lt_Some _ (rawlist (c := c) (E := E') v) j) as [d Hdj]; [rewrite <- (rc_num HR); exact Hj|].
      rewrite (rc_slot H1 Hdj), (rc_slot HR Hdj). reflexivity.
  Qed.
End Wide.
