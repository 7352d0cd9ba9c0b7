(** QueryFacts.v -- any, all, ==, Hash, clone, get, to_vec and the iterators on raw lists. *)
From Verif Require Export SwarFacts.
From Coq Require Import ZifyBool ZifyNat ZifyN.
Open Scope N_scope.
Set Implicit Arguments.
Unset Strict Implicit.
Set Default Proof Using "Type*".

(** run an outcome-returning function over a list *)
Fixpoint omap {A B} (f : A -> outcome B) (l : list A) : outcome (list B) :=
  match l with
  | [] => Ret []
  | x :: l' => let! y := f x in let! r := omap f l' in Ret (y :: r)
  end.

Lemma nthN_skip A (l : list A) i x : nthN l i = Some x -> skipn (N.to_nat i) l = x :: skipn (N.to_nat (i + 1)) l.
Proof.
  replace (N.to_nat (i + 1)) with (S (N.to_nat i)) by lia. unfold nthN.
  generalize (N.to_nat i). intros n. revert l. induction n as [|n IH]; intros [|y l] H; cbn in H; try discriminate.
  - injection H as ->. reflexivity.
  - cbn [skipn]. apply IH. exact H.
Qed.

Section Query.
  Context {T : Type} {c : cfg} {E : enumlike T}.
  Local Notation B := (BITS E).
  Local Notation P := (EPB c E).
  Local Notation Pn := (N.to_nat (EPB c E)).
  Local Notation WF := (WF c E).
  Local Notation slotv := (slotv c E).
  Local Notation RC := (RC c E).
  Local Notation D := (map (to_d E)).

  Hypothesis Hc : cfg_ok c.
  Hypothesis Hcomp : compiles c E = true.
  Hypothesis Hd : forall x, to_d E x < 2 ^ B.

  (** slots of bitwise combinations *)
  Lemma slot_lxor a b k : slot E (N.lxor a b) k = N.lxor (slot E a k) (slot E b k).
  Proof.
    apply N.bits_inj; intros m. rewrite N.lxor_spec, !slot_testbit, N.lxor_spec.
    destruct (m <? B); reflexivity.
  Qed.
  Lemma slot_lor a b k : slot E (N.lor a b) k = N.lor (slot E a k) (slot E b k).
  Proof.
    apply N.bits_inj; intros m. rewrite N.lor_spec, !slot_testbit, N.lor_spec.
    destruct (m <? B); reflexivity.
  Qed.
  Lemma slot_high r k : k < P -> slot E (N.shiftl (bones c) (r * B) mod 2 ^ W c) k = if k <? r then 0 else N.ones B.
  Proof.
    intros Hk. pose proof (slot_off Hc Hcomp Hk) as Hoff. pose proof (B1 Hc Hcomp) as HB1.
    apply N.bits_inj; intros m. rewrite slot_testbit, testbit_mod_pow2, testbit_shiftl. unfold bones. rewrite testbit_ones.
    destruct (N.ltb_spec m B) as [Hm|Hm]; cbn [andb].
    - rewrite (proj2 (N.ltb_lt _ (W c))) by lia. cbn [andb].
      destruct (N.ltb_spec k r) as [Hr|Hr].
      + rewrite (proj2 (N.leb_gt _ _)) by nia. rewrite N.bits_0. reflexivity.
      + rewrite (proj2 (N.leb_le _ _)) by nia. rewrite (proj2 (N.ltb_lt _ (W c))) by lia.
        rewrite testbit_ones. rewrite (proj2 (N.ltb_lt m B)) by lia. reflexivity.
    - destruct (k <? r); [rewrite N.bits_0; reflexivity|]. rewrite testbit_ones.
      rewrite (proj2 (N.ltb_ge m B)) by lia. reflexivity.
  Qed.

  (** two numbers agree on their first n slots iff their masked values are equal *)
  Lemma mask_slots a b n : N.land a (N.ones (n * B)) = N.land b (N.ones (n * B)) <->
    forall k, k < n -> slot E a k = slot E b k.
  Proof.
    pose proof (B1 Hc Hcomp) as HB1. split.
    - intros H k Hk. apply N.bits_inj; intros m. rewrite !slot_testbit.
      destruct (N.ltb_spec m B) as [Hm|Hm]; cbn [andb]; [|reflexivity].
      assert (G : N.testbit (N.land a (N.ones (n * B))) (k * B + m) = N.testbit (N.land b (N.ones (n * B))) (k * B + m)) by (rewrite H; reflexivity).
      rewrite !N.land_spec, testbit_ones in G. rewrite (proj2 (N.ltb_lt _ _)), !andb_true_r in G by nia. exact G.
    - intros H. apply N.bits_inj; intros m. rewrite !N.land_spec, testbit_ones.
      destruct (N.ltb_spec m (n * B)) as [Hm|Hm]; [|rewrite !andb_false_r; reflexivity]. rewrite !andb_true_r.
      assert (Hk : m / B < n) by (apply N.div_lt_upper_bound; lia).
      specialize (H _ Hk). pose proof (N.div_mod m B ltac:(lia)) as Hdm. pose proof (N.mod_lt m B ltac:(lia)) as Hml.
      assert (G : N.testbit (slot E a (m / B)) (m mod B) = N.testbit (slot E b (m / B)) (m mod B)) by (rewrite H; reflexivity).
      rewrite !slot_testbit in G. rewrite (proj2 (N.ltb_lt _ _)) in G by lia. cbn [andb] in G.
      replace (m / B * B + m mod B) with m in G by lia. exact G.
  Qed.

  Definition highm : N := N.shiftl (rep B Pn 1) (B - 1) mod 2 ^ W c.
  Lemma haszero_eq v : v < 2 ^ W c ->
    (haszero c (rep B Pn 1) highm v = true <-> exists k, k < P /\ slot E v k = 0).
  Proof.
    intros Hv. destruct (haszero_spec Hc Hcomp Hv) as [h [H1 H2]].
    pose proof (BITS_range Hc Hcomp) as HB. rewrite (shl_ok Hc Hcomp) in H1 by lia. injection H1 as <-. exact H2.
  Qed.

  Lemma rep_W d : d < 2 ^ B -> rep B Pn d < 2 ^ W c.
  Proof.
    intros Hx. apply N.lt_le_trans with (2 ^ (N.of_nat Pn * B)); [apply rep_lt; [apply (B1 Hc Hcomp)|exact Hx]|].
    apply pow2_le. rewrite (PnP Hc Hcomp). apply (EPB_mul Hc Hcomp).
  Qed.
  Lemma block_match b d : b < 2 ^ W c -> d < 2 ^ B ->
    (haszero c (rep B Pn 1) highm (N.lxor b (rep B Pn d)) = true <-> exists k, k < P /\ slot E b k = d).
  Proof.
    intros Hb Hx. rewrite haszero_eq by (apply lxor_lt; [exact Hb|apply rep_W; exact Hx]).
    split; intros [k [Hk Hs]]; exists k; (split; [exact Hk|]).
    - rewrite slot_lxor, (slot_rep Hc Hcomp Hx Hk) in Hs. apply N.lxor_eq. exact Hs.
    - rewrite slot_lxor, (slot_rep Hc Hcomp Hx Hk), Hs. apply N.lxor_nilpotent.
  Qed.
  Lemma last_match b d r : b < 2 ^ W c -> d < 2 ^ B -> r < P ->
    (haszero c (rep B Pn 1) highm (N.lor (N.lxor b (rep B Pn d)) (N.shiftl (bones c) (r * B) mod 2 ^ W c)) = true
     <-> exists k, k < r /\ slot E b k = d).
  Proof.
    intros Hb Hx Hr. pose proof (B1 Hc Hcomp) as HB1.
    rewrite haszero_eq by (apply lor_lt; [apply lxor_lt; [exact Hb|apply rep_W; exact Hx]|apply mod_pow2_lt]).
    split; intros [k [Hk Hs]]; exists k.
    - rewrite slot_lor, slot_lxor, (slot_rep Hc Hcomp Hx Hk), slot_high in Hs by exact Hk.
      destruct (N.ltb_spec k r) as [Hkr|Hkr].
      + split; [exact Hkr|]. rewrite N.lor_0_r in Hs. apply N.lxor_eq. exact Hs.
      + apply N.lor_eq_0_iff in Hs. destruct Hs as [_ Hs]. rewrite ones_eq in Hs.
        pose proof (one_lt Hc Hcomp). lia.
    - assert (Hk2 : k < P) by lia. split; [exact Hk2|].
      rewrite slot_lor, slot_lxor, (slot_rep Hc Hcomp Hx Hk2), slot_high by exact Hk2.
      rewrite (proj2 (N.ltb_lt k r)) by exact Hk. rewrite Hs, N.lxor_nilpotent. reflexivity.
  Qed.

  Lemma any_loop_spec d v n : d < 2 ^ B -> WF v -> forall i, i + N.of_nat n <= vlen (storage v) ->
    exists b, any_loop c n i (rep B Pn 1) highm (rep B Pn d) v = Ret b /\
      (b = true <-> exists w k, i <= w /\ w < i + N.of_nat n /\ k < P /\ slotv v (w * P + k) = d).
  Proof.
    intros Hx Hw. induction n as [|n IH]; intros i Hi; cbn [any_loop].
    - exists false. split; [reflexivity|]. split; [discriminate|]. intros [w [k [H1 [H2 _]]]]. lia.
    - unfold load. destruct (@nthN_lt_Some _ (data (storage v)) i) as [b Hb]; [unfold vlen in Hi; lia|].
      rewrite Hb. cbn [obind].
      pose proof (Forall_nthN (wf_blocks Hw) Hb) as Hbl. cbv beta in Hbl.
      pose proof (block_match Hbl Hx) as Hm.
      destruct (haszero c (rep B Pn 1) highm (N.lxor b (rep B Pn d))).
      + exists true. split; [reflexivity|]. split; [|reflexivity]. intros _.
        destruct (proj1 Hm eq_refl) as [k [Hk Hs]]. exists i, k. split; [lia|split; [lia|split; [exact Hk|]]].
        rewrite (slotv_block Hc Hcomp Hd Hb Hk). exact Hs.
      + destruct (IH (i + 1)) as [r [Hr Hiff]]; [lia|]. exists r. split; [exact Hr|]. rewrite Hiff. split.
        * intros [w [k [H1 [H2 [H3 H4]]]]]. exists w, k. split; [lia|split; [lia|auto]].
        * intros [w [k [H1 [H2 [H3 H4]]]]]. destruct (N.eq_dec w i) as [->|Hne].
          -- exfalso. rewrite (slotv_block Hc Hcomp Hd Hb H3) in H4.
             pose proof (proj2 Hm (ex_intro _ k (conj H3 H4))). discriminate.
          -- exists w, k. split; [lia|split; [lia|auto]].
  Qed.

  Lemma RC_any cl v ds x : RC cl v ds ->
    exists b, any c E x v = Ret b /\ (b = true <-> In (to_d E x) ds).
  Proof.
    intros H. unfold any, is_empty, len. rewrite (rc_num H).
    destruct (N.eqb_spec (lenN ds) 0) as [H0|H0].
    - exists false. split; [reflexivity|]. rewrite (lenN_nil_inv H0). split; [discriminate|intros []].
    - unfold block_index. pose proof (Ppos Hc Hcomp Hd) as HP. pose proof (RC_cover Hc Hcomp Hd H) as Hcv.
      pose proof (BITS_range Hc Hcomp) as HB. set (n := lenN ds) in *. set (d := to_d E x).
      pose proof (N.div_mod n P ltac:(lia)) as Hdm. pose proof (N.mod_lt n P ltac:(lia)) as Hml.
      set (q := n / P) in *. set (r := n mod P) in *.
      assert (Hq : q <= vlen (storage v)) by nia.
      rewrite (one_mask_eq Hc Hcomp). cbn [obind].
      rewrite (shl_ok Hc Hcomp) by lia. cbn [obind]. fold highm.
      rewrite (x_mask_eq Hc Hcomp (Hd x)). fold d. cbn [obind].
      destruct (@any_loop_spec d v (N.to_nat q) (Hd x) (rc_wf H) 0) as [b [-> Hb]]; [lia|]. cbn [obind].
      assert (HIn : In d ds <-> exists i, i < n /\ slotv v i = d).
      { split.
        - intros Hi. apply In_nth_error in Hi. destruct Hi as [k Hk].
          assert (Hk2 : nthN ds (N.of_nat k) = Some d) by (unfold nthN; rewrite Nat2N.id; exact Hk).
          exists (N.of_nat k). split; [apply (nthN_Some_lt Hk2)|apply (rc_slot H Hk2)].
        - intros [i [Hi Hs]]. destruct (nthN_lt_Some Hi) as [e He]. rewrite (rc_slot H He) in Hs. subst e.
          eapply nth_error_In. exact He. }
      destruct b.
      + exists true. split; [reflexivity|]. split; [|reflexivity]. intros _. apply HIn.
        destruct (proj1 Hb eq_refl) as [w [k [_ [H2 [H3 H4]]]]]. exists (w * P + k). split; [|exact H4]. nia.
      + assert (Hno : forall i, i < q * P -> slotv v i <> d).
        { intros i Hi Hs. assert (Hf : false = true); [|discriminate]. apply Hb. exists (i / P), (i mod P).
          pose proof (N.div_mod i P ltac:(lia)) as Hdi. pose proof (N.mod_lt i P ltac:(lia)).
          split; [apply N.le_0_l|split; [|split; [assumption|]]].
          - rewrite N.add_0_l, N2Nat.id. apply N.div_lt_upper_bound; lia.
          - replace (i / P * P + i mod P) with i by lia. exact Hs. }
        destruct (N.eqb_spec (r * B) 0) as [Hr|Hr]; cbn [negb].
        * exists false. split; [reflexivity|]. split; [discriminate|]. rewrite HIn. intros [i [Hi Hs]].
          exfalso. apply (Hno i); [|exact Hs]. assert (r = 0) by nia. lia.
        * pose proof (slot_off_lt Hc Hcomp Hml) as Hoff. rewrite (shl_ok Hc Hcomp) by exact Hoff. cbn [obind].
          assert (Hqlt : q < vlen (storage v)) by nia.
          unfold load. destruct (nthN_lt_Some Hqlt) as [b Hbk]. rewrite Hbk. cbn [obind].
          pose proof (Forall_nthN (wf_blocks (rc_wf H)) Hbk) as Hbl. cbv beta in Hbl.
          eexists; split; [reflexivity|]. unfold d. rewrite (last_match Hbl (Hd x) Hml). fold d. rewrite HIn. split.
          -- intros [k [Hk Hs]]. exists (q * P + k). split; [lia|].
             rewrite (slotv_block Hc Hcomp Hd Hbk) by lia. exact Hs.
          -- intros [i [Hi Hs]]. destruct (N.lt_ge_cases i (q * P)) as [Hlt|Hge]; [exfalso; apply (Hno i Hlt Hs)|].
             exists (i - q * P). split; [lia|]. rewrite <- (slotv_block Hc Hcomp Hd Hbk) by lia.
             replace (q * P + (i - q * P)) with i by lia. exact Hs.
  Qed.

  Lemma valid_eq : shr c (bones c) (W c mod B) = Ret (N.ones (P * B)).
  Proof.
    pose proof (BITS_range Hc Hcomp) as HB. pose proof (Wmod_lt Hc Hcomp) as Hm.
    rewrite (shr_ok Hc Hcomp) by lia. f_equal. apply N.bits_inj; intros m.
    unfold bones. rewrite testbit_shiftr, !testbit_ones. pose proof (W_split Hc Hcomp).
    destruct (N.ltb_spec (m + W c mod B) (W c)); destruct (N.ltb_spec m (P * B)); try reflexivity; lia.
  Qed.
  Lemma rep_land d : d < 2 ^ B -> N.land (rep B Pn d) (N.ones (P * B)) = rep B Pn d.
  Proof.
    intros Hx. rewrite N.land_ones. apply N.mod_small.
    pose proof (@rep_lt B Pn d (B1 Hc Hcomp) Hx) as G. rewrite (PnP Hc Hcomp) in G. exact G.
  Qed.

  Lemma all_loop_spec d v n : d < 2 ^ B -> WF v -> forall i, i + N.of_nat n <= vlen (storage v) ->
    exists b, all_loop n i (N.ones (P * B)) (rep B Pn d) v = Ret b /\
      (b = true <-> forall w k, i <= w -> w < i + N.of_nat n -> k < P -> slotv v (w * P + k) = d).
  Proof.
    intros Hx Hw. induction n as [|n IH]; intros i Hi; cbn [all_loop].
    - exists true. split; [reflexivity|]. split; [|reflexivity]. intros _ w k H1 H2. lia.
    - unfold load. destruct (@nthN_lt_Some _ (data (storage v)) i) as [b Hb]; [unfold vlen in Hi; lia|].
      rewrite Hb. cbn [obind].
      assert (Hm : N.land b (N.ones (P * B)) = rep B Pn d <-> forall k, k < P -> slot E b k = d).
      { rewrite <- (rep_land Hx). rewrite mask_slots. split; intros G k Hk; specialize (G k Hk).
        - rewrite (slot_rep Hc Hcomp Hx Hk) in G. exact G.
        - rewrite (slot_rep Hc Hcomp Hx Hk). exact G. }
      destruct (N.eqb_spec (N.land b (N.ones (P * B))) (rep B Pn d)) as [He|He]; cbn [negb].
      + destruct (IH (i + 1)) as [r [Hr Hiff]]; [lia|]. exists r. split; [exact Hr|]. rewrite Hiff. split.
        * intros G w k H1 H2 H3. destruct (N.eq_dec w i) as [->|Hne]; [|apply G; try assumption; lia].
          rewrite (slotv_block Hc Hcomp Hd Hb H3). apply (proj1 Hm He k H3).
        * intros G w k H1 H2 H3. apply G; try assumption; lia.
      + exists false. split; [reflexivity|]. split; [discriminate|]. intros G. exfalso. apply He, Hm.
        intros k Hk. rewrite <- (slotv_block Hc Hcomp Hd Hb Hk). apply G; lia.
  Qed.

  Lemma RC_all cl v ds x : RC cl v ds ->
    exists b, all c E x v = Ret b /\ (b = true <-> Forall (fun d => d = to_d E x) ds).
  Proof.
    intros H. unfold all, is_empty, len. rewrite (rc_num H).
    destruct (N.eqb_spec (lenN ds) 0) as [H0|H0].
    - exists true. split; [reflexivity|]. rewrite (lenN_nil_inv H0). split; [constructor|reflexivity].
    - unfold block_index. pose proof (Ppos Hc Hcomp Hd) as HP. pose proof (RC_cover Hc Hcomp Hd H) as Hcv.
      pose proof (BITS_range Hc Hcomp) as HB. set (n := lenN ds) in *. set (d := to_d E x).
      pose proof (N.div_mod n P ltac:(lia)) as Hdm. pose proof (N.mod_lt n P ltac:(lia)) as Hml.
      set (q := n / P) in *. set (r := n mod P) in *.
      assert (Hq : q <= vlen (storage v)) by nia.
      rewrite valid_eq. cbn [obind].
      rewrite (x_mask_eq Hc Hcomp (Hd x)). fold d. cbn [obind].
      destruct (@all_loop_spec d v (N.to_nat q) (Hd x) (rc_wf H) 0) as [b [-> Hb]]; [lia|]. cbn [obind].
      assert (HIn : Forall (fun e => e = d) ds <-> forall i, i < n -> slotv v i = d).
      { split.
        - intros Hi i Hlt. destruct (nthN_lt_Some Hlt) as [e He]. rewrite (rc_slot H He). apply (Forall_nthN Hi He).
        - intros G. apply Forall_forall. intros e He. apply In_nth_error in He. destruct He as [k Hk].
          assert (Hk2 : nthN ds (N.of_nat k) = Some e) by (unfold nthN; rewrite Nat2N.id; exact Hk).
          rewrite <- (rc_slot H Hk2). apply G. apply (nthN_Some_lt Hk2). }
      assert (Hb2 : b = true <-> forall i, i < q * P -> slotv v i = d).
      { rewrite Hb. split.
        - intros G i Hi. pose proof (N.div_mod i P ltac:(lia)) as Hdi. pose proof (N.mod_lt i P ltac:(lia)).
          replace i with (i / P * P + i mod P) by lia. apply G; [apply N.le_0_l| |assumption].
          rewrite N.add_0_l, N2Nat.id. apply N.div_lt_upper_bound; lia.
        - intros G w k _ H2 H3. apply G. nia. }
      clear Hb. destruct b; cbn [negb].
      + pose proof (proj1 Hb2 eq_refl) as Hlow.
        destruct (N.eqb_spec (r * B) 0) as [Hr|Hr]; cbn [negb].
        * exists true. split; [reflexivity|]. split; [|reflexivity]. intros _. apply HIn.
          intros i Hi. apply Hlow. assert (r = 0) by nia. lia.
        * pose proof (slot_off_lt Hc Hcomp Hml) as Hoff. rewrite (shl_ok Hc Hcomp) by exact Hoff. cbn [obind].
          assert (Hqlt : q < vlen (storage v)) by nia.
          unfold load. destruct (nthN_lt_Some Hqlt) as [b Hbk]. rewrite Hbk. cbn [obind].
          assert (Hmask : bnot c (N.shiftl (bones c) (r * B) mod 2 ^ W c) = N.ones (r * B)).
          { apply N.bits_inj; intros m. unfold bnot, bones. rewrite testbit_lnot, testbit_mod_pow2, testbit_shiftl, !testbit_ones.
            destruct (N.ltb_spec m (W c)) as [H1|H1]; cbn [andb].
            - destruct (N.leb_spec (r * B) m) as [H2|H2]; cbn [andb].
              + rewrite (proj2 (N.ltb_lt (m - r * B) (W c))), (proj2 (N.ltb_ge m (r * B))) by lia. reflexivity.
              + rewrite (proj2 (N.ltb_lt m (r * B))) by lia. reflexivity.
            - rewrite (proj2 (N.ltb_ge m (r * B))) by lia. reflexivity. }
          rewrite Hmask. eexists; split; [reflexivity|]. rewrite N.eqb_eq, mask_slots, HIn. split.
          -- intros G i Hi. destruct (N.lt_ge_cases i (q * P)) as [Hlt|Hge]; [apply Hlow; exact Hlt|].
             specialize (G (i - q * P) ltac:(lia)). rewrite (slot_rep Hc Hcomp (Hd x)) in G by lia.
             rewrite <- (slotv_block Hc Hcomp Hd Hbk) in G by lia.
             replace (q * P + (i - q * P)) with i in G by lia. exact G.
          -- intros G k Hk. rewrite (slot_rep Hc Hcomp (Hd x)) by lia.
             rewrite <- (slotv_block Hc Hcomp Hd Hbk) by lia. apply G. lia.
      + exists false. split; [reflexivity|]. split; [discriminate|]. rewrite HIn. intros G.
        apply Hb2. intros i Hi. apply G. nia.
  Qed.

  (** == and Hash *)
  Lemma RC_eq_loop cl cl' v w ds es : RC cl v ds -> RC cl' w es -> lenN ds = lenN es ->
    forall n i, i + N.of_nat n = lenN ds ->
    exists b, eq_loop c E n i v w = Ret b /\ (b = true <-> skipn (N.to_nat i) ds = skipn (N.to_nat i) es).
  Proof.
    intros H H' HL. induction n as [|n IH]; intros i Hi; cbn [eq_loop].
    - exists true. split; [reflexivity|]. rewrite !skipn_all2 by (unfold lenN in *; lia). split; reflexivity.
    - destruct (@nthN_lt_Some _ ds i) as [a Ha]; [lia|]. destruct (@nthN_lt_Some _ es i) as [b Hb]; [lia|].
      rewrite (RC_get_raw_unchecked Hc Hcomp Hd H Ha), (RC_get_raw_unchecked Hc Hcomp Hd H' Hb). cbn [obind].
      rewrite (nthN_skip Ha), (nthN_skip Hb).
      destruct (N.eqb_spec a b) as [->|Hne].
      + destruct (IH (i + 1)) as [r [Hr Hiff]]; [lia|]. exists r. split; [exact Hr|]. rewrite Hiff.
        split; [intros ->; reflexivity|intros G; congruence].
      + exists false. split; [reflexivity|]. split; [discriminate|]. intros G. congruence.
  Qed.
  Lemma RC_eq cl cl' v w ds es : RC cl v ds -> RC cl' w es ->
    exists b, eq c E v w = Ret b /\ (b = true <-> ds = es).
  Proof.
    intros H H'. unfold eq, len. rewrite (rc_num H), (rc_num H').
    destruct (N.eqb_spec (lenN ds) (lenN es)) as [He|Hne].
    - destruct (RC_eq_loop H H' He (n := N.to_nat (lenN ds)) (i := 0)) as [b [Hb Hiff]]; [lia|]. exists b. split; [exact Hb|]. exact Hiff.
    - exists false. split; [reflexivity|]. split; [discriminate|]. intros ->. congruence.
  Qed.
  Lemma RC_hash_loop cl v ds : RC cl v ds -> forall n i, i + N.of_nat n = lenN ds ->
    hash_loop c E n i v = Ret (skipn (N.to_nat i) ds).
  Proof.
    intros H. induction n as [|n IH]; intros i Hi; cbn [hash_loop].
    - rewrite skipn_all2 by (unfold lenN in *; lia). reflexivity.
    - destruct (@nthN_lt_Some _ ds i) as [a Ha]; [lia|].
      rewrite (RC_get_raw_unchecked Hc Hcomp Hd H Ha). cbn [obind]. rewrite (IH (i + 1)) by lia.
      cbn [obind]. rewrite (nthN_skip Ha). reflexivity.
  Qed.
  Lemma RC_hash cl v ds : RC cl v ds -> hash c E v = Ret ds.
  Proof. intros H. unfold hash, len. rewrite (rc_num H). rewrite (RC_hash_loop H (i := 0)) by lia. reflexivity. Qed.

  (** clone *)
  Definition ook {A} (Q : A -> Prop) (F : panic -> Prop) (o : outcome A) : Prop :=
    match o with Ret a => Q a | Panic k => F k | Abort => True | UB => False end.
  Lemma RC_clone cl v ds : RC cl v ds -> ook (fun v' => RC cl v' ds) (fun k => k = PCapacity) (clone c v).
  Proof.
    intros H. unfold clone, vec_clone, vec_extend_from. pose proof (rc_wf (RC_new Hc Hcomp Hd)) as Hn.
    destruct (vec_ensure_cases Hc Hcomp Hd (vlen (vec_new c) + lenN (data (storage v))) (s := vec_new c) (wf_alloc Hn)) as [[cap' [-> [H1 [H2 H3]]]]|[->| ->]]; cbn; auto.
    apply (RC_storage Hc Hcomp Hd H); cbn.
    - apply (wf_blocks (rc_wf H)).
    - apply (RC_cover Hc Hcomp Hd H).
    - unfold vlen in *; cbn in *. exact H1.
    - exact H3.
    - reflexivity.
    - intros -> w b. apply (RC_waste Hc Hcomp Hd H).
  Qed.

  (** iteration *)
  Lemma RC_iter_item cl v ds i : RC cl v ds ->
    iter_item c E v (Some i) = match nthN ds i with
                               | Some d => let! x := from_discr E d in Ret (Some x)
                               | None => Panic PUnwrap end.
  Proof.
    intros H. unfold iter_item. rewrite (RC_get Hc Hcomp Hd _ H). destruct (nthN ds i) as [d|]; [|reflexivity].
    unfold from_discr. destruct (from_d E d); reflexivity.
  Qed.
  Lemma RC_iter_collect cl v ds : RC cl v ds -> forall n i, i + N.of_nat n = lenN ds ->
    iter_collect c E v n (mkRange i (lenN ds)) = omap (from_discr E) (skipn (N.to_nat i) ds).
  Proof.
    intros H. induction n as [|n IH]; intros i Hi; cbn [iter_collect]; unfold iter_next, range_next; cbn [r_start r_end].
    - rewrite (proj2 (N.ltb_ge _ _)) by lia. cbn. rewrite skipn_all2 by (unfold lenN in *; lia). reflexivity.
    - rewrite (proj2 (N.ltb_lt _ _)) by lia. rewrite (RC_iter_item _ H).
      destruct (@nthN_lt_Some _ ds i) as [a Ha]; [lia|]. rewrite Ha, (nthN_skip Ha). cbn [omap].
      destruct (from_discr E a); cbn [obind]; try reflexivity. rewrite (IH (i + 1)) by lia. reflexivity.
  Qed.
  Lemma RC_to_vec cl v ds : RC cl v ds -> to_vec c E v = omap (from_discr E) ds.
  Proof.
    intros H. unfold to_vec, into_iter, iter_size_hint, len; cbn [r_start r_end]. rewrite (rc_num H).
    rewrite (RC_iter_collect H) by lia. reflexivity.
  Qed.
End Query.
Arguments ook {A} Q F o.
