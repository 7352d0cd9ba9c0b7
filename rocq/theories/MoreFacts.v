(** MoreFacts.v -- retain, for_each, swap_remove, append, resize, with_capacity. *)
From Verif Require Export QueryFacts Spec.
From Coq Require Import ZifyBool ZifyNat ZifyN.
Open Scope N_scope.
Set Implicit Arguments.
Unset Strict Implicit.
Set Default Proof Using "Type*".

Lemma okr_on_fst S R A (m : M S A) (s : S * R) (Q : A -> S * R -> Prop) F :
  okr (fun a s1 => Q a (s1, snd s)) (fun k s1 => F k (s1, snd s)) (m (fst s)) -> okr Q F (on_fst m s).
Proof. unfold on_fst. destruct (m (fst s)) as [[a|k| |] s1]; cbn; auto. Qed.
Lemma okr_on_snd S R A (m : M R A) (s : S * R) (Q : A -> S * R -> Prop) F :
  okr (fun a s1 => Q a (fst s, s1)) (fun k s1 => F k (fst s, s1)) (m (snd s)) -> okr Q F (on_snd m s).
Proof. unfold on_snd. destruct (m (snd s)) as [[a|k| |] s1]; cbn; auto. Qed.

Lemma okr_fst S R A (m : M S A) (s : S * R) (Q : A -> S -> Prop) F :
  okr Q F (m (fst s)) -> okr (fun a s' => Q a (fst s') /\ snd s' = snd s) (fun k s' => F k (fst s') /\ snd s' = snd s) (on_fst m s).
Proof. unfold on_fst. destruct (m (fst s)) as [[a|k| |] s1]; cbn; auto. Qed.
Lemma okr_snd S R A (m : M R A) (s : S * R) (Q : A -> R -> Prop) F :
  okr Q F (m (snd s)) -> okr (fun a s' => Q a (snd s') /\ fst s' = fst s) (fun k s' => F k (snd s') /\ fst s' = fst s) (on_snd m s).
Proof. unfold on_snd. destruct (m (snd s)) as [[a|k| |] s1]; cbn; auto. Qed.

Lemma l_set_updN A (l : list A) i x : l_set l i x = updN l i x.
Proof. unfold l_set, updN. generalize (N.to_nat i) as n. induction l as [|h t IH]; intros [|n]; cbn; congruence. Qed.
Lemma l_pop_snoc A (l : list A) x : l_pop (l ++ [x]) = Some (x, l).
Proof. unfold l_pop. rewrite rev_app_distr. cbn. rewrite rev_involutive. reflexivity. Qed.
Lemma snoc_cases A (l : list A) : l = [] \/ exists l' x, l = l' ++ [x].
Proof.
  destruct l as [|a l]; [left; reflexivity|right].
  destruct (exists_last (l := a :: l)) as [l' [x H]]; [discriminate|]. eauto.
Qed.

Section More.
  Context {T : Type} {c : cfg} {E : enumlike T}.
  Local Notation B := (BITS E).
  Local Notation P := (EPB c E).
  Local Notation WF := (WF c E).
  Local Notation slotv := (slotv c E).
  Local Notation RC := (RC c E).
  Local Notation D := (map (to_d E)).

  Hypothesis Hc : cfg_ok c.
  Hypothesis Hcomp : compiles c E = true.
  Hypothesis Hd : forall x, to_d E x < 2 ^ B.

  (** swap_remove *)
  Lemma RC_swap_remove cl v ds d0 index d : RC cl v (ds ++ [d0]) -> nthN (ds ++ [d0]) index = Some d ->
    okr (fun r v' => from_d E d = Some r /\ RC cl v' (if index =? lenN ds then ds else updN ds index d0))
        (fun k v' => k = PDiscr /\ from_d E d = None /\ WF v' /\ num v' = num v) (swap_remove c E index v).
  Proof.
    intros H Hi. unfold swap_remove. pose proof (rc_num H) as Hn. rewrite lenN_app in Hn. cbn in Hn.
    eapply okr_reads. { apply (usub_ok Hc Hcomp). unfold len. lia. }
    unfold len. replace (num v - 1) with (lenN ds) by lia.
    assert (Hl : nthN (ds ++ [d0]) (lenN ds) = Some d0) by apply nthN_middle.
    eapply okr_bind_mono; [apply (RC_swap Hc Hcomp Hd H Hi Hl)| |intros k s []].
    intros u v1 H1. cbv beta in H1.
    assert (Heq : updN (updN (ds ++ [d0]) index d0) (lenN ds) d = (if index =? lenN ds then ds else updN ds index d0) ++ [d]).
    { pose proof (nthN_Some_lt Hi) as Hlt. rewrite lenN_app in Hlt. cbn in Hlt.
      apply listN_ext. intros k. rewrite !nthN_updN, lenN_updN, lenN_app. cbn.
      rewrite (proj2 (N.ltb_lt (lenN ds) _)), (proj2 (N.ltb_lt index _)) by lia.
      assert (HL : lenN (if index =? lenN ds then ds else updN ds index d0) = lenN ds).
      { destruct (index =? lenN ds); rewrite ?lenN_updN; reflexivity. }
      destruct (N.eqb_spec (lenN ds) k) as [<-|Hk].
      - rewrite nthN_app_r by lia. rewrite HL, N.sub_diag. reflexivity.
      - destruct (N.lt_ge_cases k (lenN ds)) as [Hlt2|Hge].
        + rewrite !nthN_app_l by lia. destruct (N.eqb_spec index (lenN ds)) as [->|Hne].
          * destruct (N.eqb_spec (lenN ds) k); [congruence|reflexivity].
          * rewrite nthN_updN. destruct (N.eqb_spec index k) as [->|]; [|reflexivity].
            rewrite (proj2 (N.ltb_lt k (lenN ds))) by lia. reflexivity.
        + rewrite nthN_ge_None with (l := _ ++ [d]) by (rewrite lenN_app, HL; cbn; lia).
          destruct (N.eqb_spec index k) as [->|]; [lia|]. apply nthN_ge_None. rewrite lenN_app. cbn. lia. }
    rewrite Heq in H1.
    unfold bind. pose proof (RC_pop_snoc Hc Hcomp Hd H1) as Hp.
    destruct (pop c E v1) as [[r|k| |] v2]; cbn in Hp |- *; try contradiction; auto.
    - destruct Hp as [G1 [x [G2 ->]]]. cbn. auto.
    - destruct Hp as [-> [-> G]]. split; [reflexivity|split; [exact G|split; [apply (rc_wf H1)|]]].
      rewrite (rc_num H1), (rc_num H), !lenN_app. destruct (index =? lenN ds); rewrite ?lenN_updN; reflexivity.
  Qed.
  Lemma RC_swap_remove_oob cl v ds index : RC cl v ds -> lenN ds <= index ->
    exists k, swap_remove c E index v = (Panic k, v) /\ (k = PUnwrap \/ (k = POverflow /\ ds = [] /\ ovf c = true)).
  Proof.
    intros H Hi. unfold swap_remove, bind at 1, reads at 1. unfold len. rewrite (rc_num H). unfold usub.
    destruct (N.leb_spec 1 (lenN ds)) as [H1|H1].
    - exists PUnwrap. unfold bind at 1. rewrite (RC_swap_oob Hc Hcomp Hd (ia := index) (ib := lenN ds - 1) H) by auto. auto.
    - assert (ds = []) by (apply lenN_nil_inv; lia).
      destruct (ovf c).
      + exists POverflow. auto.
      + exists PUnwrap. unfold bind at 1. rewrite (RC_swap_oob Hc Hcomp Hd (ia := index) H) by auto. auto.
  Qed.

  (** resize *)
  Lemma RC_resize cl v ds n x : alloc_isize c -> RC cl v ds -> n <= usize_max c ->
    okr (fun _ v' => RC (cl && (n <=? lenN ds + 4 * P)) v'
            (if lenN ds <? n then ds ++ repeat (to_d E x) (N.to_nat (n - lenN ds)) else firstn (N.to_nat n) ds))
        (fun k v' => cap_panic k /\ exists m, m <= n - lenN ds /\ RC false v' (ds ++ repeat (to_d E x) (N.to_nat m)))
        (resize c E n x v).
  Proof.
    intros Hb H Hn. unfold resize. eapply okr_reads; [reflexivity|]. unfold len. rewrite (rc_num H).
    destruct (N.ltb_spec (lenN ds) n) as [Hlt|Hge].
    - eapply okr_lift. { apply (usub_ok Hc Hcomp). lia. }
      eapply okr_mono; [apply (RC_extend_with_value Hc Hcomp Hd x Hb H (count := n - lenN ds)); lia|..].
      + intros u v' G. cbv beta in G. replace (n <=? lenN ds + 4 * P) with (n - lenN ds <=? 4 * P) by lia. exact G.
      + intros k v' [G1 G2]. auto.
    - eapply okr_mono; [apply (RC_truncate Hc Hcomp Hd n H)|..].
      + intros u v' [G _]. apply (RC_weaken_and Hc Hcomp Hd). exact G.
      + intros k s [].
  Qed.

  (** closures *)
  Section Closures.
    Hypothesis Hfd : forall x, from_d E (to_d E x) = Some x.
    Lemma RC_get_lawful cl v l i : RC cl v (D l) -> get c E i v = Ret (nthN l i).
    Proof.
      intros H. rewrite (RC_get Hc Hcomp Hd _ H), nthN_map. destruct (nthN l i) as [x|]; [|reflexivity].
      cbn. unfold from_discr. rewrite Hfd. reflexivity.
    Qed.

    Lemma RC_set_lawful cl v l i x : RC cl v (D l) -> i < lenN l ->
      okr (fun _ v' => RC cl v' (D (updN l i x))) never (set c E i x v).
    Proof.
      intros H Hi. unfold set. eapply okr_mono; [apply (RC_set_raw Hc Hcomp Hd (i := i) (d := to_d E x) H)|..].
      - rewrite lenN_map. exact Hi.
      - apply Hd.
      - intros u s G. cbv beta in G. rewrite map_updN. exact G.
      - auto.
    Qed.

    Lemma RC_retain_loop St (f : St -> T -> option (bool * St)) cl l : forall todo done K st v,
      l = done ++ todo -> (length K <= length done)%nat -> RC cl v (D (K ++ skipn (length K) l)) ->
      okr (fun r v' => let '(K', o) := l_retain f st todo in
             o = Some (snd r) /\ fst r = lenN (K ++ K') /\ RC cl v' (D ((K ++ K') ++ skipn (length (K ++ K')) l)))
          (fun k v' => let '(K', o) := l_retain f st todo in
             k = PUser /\ o = None /\ RC cl v' (D ((K ++ K') ++ skipn (length (K ++ K')) l)))
          (retain_loop c E f (length todo) (lenN done) (lenN K) st v).
    Proof.
      induction todo as [|x todo IH]; intros done K st v Hl HK H; cbn [length retain_loop l_retain].
      - cbn. rewrite app_nil_r. auto.
      - assert (Hx : nthN (K ++ skipn (length K) l) (lenN done) = Some x).
        { rewrite nthN_app_r by (unfold lenN; lia). rewrite nthN_skipn.
          replace (N.of_nat (length K) + (lenN done - lenN K)) with (lenN done) by (unfold lenN; lia).
          rewrite Hl. apply nthN_middle. }
        eapply okr_reads. { rewrite (RC_get_lawful _ H), Hx. reflexivity. }
        destruct (f st x) as [[[|] st']|].
        + eapply okr_bind_mono.
          * apply (RC_set_lawful (i := lenN K) x H). rewrite lenN_app, lenN_skipn.
            assert (lenN l = lenN done + lenN (x :: todo)) by (rewrite Hl; apply lenN_app).
            rewrite lenN_cons in *. unfold lenN in *. lia.
          * intros u v1 H1. cbv beta in H1.
            assert (Hs : exists y, skipn (length K) l = y :: skipn (length (K ++ [x])) l).
            { destruct (@nthN_lt_Some _ l (lenN K)) as [y Hy].
              - rewrite Hl, lenN_app, lenN_cons. unfold lenN. lia.
              - exists y. pose proof (nthN_skip Hy) as G. rewrite lenN_to_nat in G. rewrite G.
                f_equal. f_equal. rewrite app_length. cbn. unfold lenN. lia. }
            destruct Hs as [y Hs]. rewrite Hs, updN_app_r in H1.
            replace (K ++ x :: skipn (length (K ++ [x])) l) with ((K ++ [x]) ++ skipn (length (K ++ [x])) l) in H1
              by (rewrite <- app_assoc; reflexivity).
            replace (lenN done + 1) with (lenN (done ++ [x])) by (rewrite lenN_app; reflexivity).
            replace (lenN K + 1) with (lenN (K ++ [x])) by (rewrite lenN_app; reflexivity).
            eapply okr_mono; [apply (IH (done ++ [x]) (K ++ [x]) st' v1)|..].
            -- rewrite Hl, <- app_assoc. reflexivity.
            -- rewrite !app_length. cbn. lia.
            -- exact H1.
            -- intros r v'. destruct (l_retain f st' todo) as [K' o].
               replace ((K ++ [x]) ++ K') with (K ++ x :: K') by (rewrite <- app_assoc; reflexivity). auto.
            -- intros k v'. destruct (l_retain f st' todo) as [K' o].
               replace ((K ++ [x]) ++ K') with (K ++ x :: K') by (rewrite <- app_assoc; reflexivity). auto.
          * intros k s [].
        + replace (lenN done + 1) with (lenN (done ++ [x])) by (rewrite lenN_app; reflexivity).
          eapply okr_mono; [apply (IH (done ++ [x]) K st' v)|..].
          * rewrite Hl, <- app_assoc. reflexivity.
          * rewrite app_length. lia.
          * exact H.
          * intros r v'. destruct (l_retain f st' todo) as [K' o]. auto.
          * intros k v'. destruct (l_retain f st' todo) as [K' o]. auto.
        + cbn. rewrite app_nil_r. auto.
    Qed.
    Lemma RC_retain St (f : St -> T -> option (bool * St)) cl l st v : RC cl v (D l) ->
      okr (fun r v' => let '(K, o) := l_retain f st l in o = Some r /\ RC cl v' (D K))
          (fun k v' => let '(K, o) := l_retain f st l in
             k = PUser /\ o = None /\ RC cl v' (D (K ++ skipn (length K) l)))
          (retain c E f st v).
    Proof.
      intros H. unfold retain. eapply okr_reads; [reflexivity|]. unfold len. rewrite (rc_num H), lenN_map, lenN_to_nat.
      eapply okr_bind_mono.
      - apply (RC_retain_loop f (cl := cl) (l := l) (todo := l) (done := []) (K := []) st (v := v)); [reflexivity|cbn; lia|exact H].
      - intros r v1. destruct (l_retain f st l) as [K o]. cbn [app]. intros [G1 [G2 G3]].
        cbn. split; [exact G1|]. rewrite G2.
        pose proof (RC_set_len_le Hc Hcomp Hd (n := lenN K) G3) as G.
        rewrite lenN_map, lenN_app in G. specialize (G ltac:(lia)).
        rewrite map_app in G. rewrite lenN_to_nat, firstn_app in G.
        rewrite map_length, Nat.sub_diag in G. cbn [firstn] in G. rewrite app_nil_r in G.
        rewrite <- (map_length (to_d E) K), firstn_all in G at 1. exact G.
      - intros k s G. exact G.
    Qed.

    Lemma RC_for_each_loop St (f : St -> T -> option (T * St)) cl : forall todo done st v,
      RC cl v (D (done ++ todo)) ->
      okr (fun r v' => let '(K, o) := l_map f st todo in o = Some r /\ RC cl v' (D (done ++ K)))
          (fun k v' => let '(K, o) := l_map f st todo in
             k = PUser /\ o = None /\ RC cl v' (D (done ++ K ++ skipn (length K) todo)))
          (for_each_loop c E f (length todo) (lenN done) st v).
    Proof.
      induction todo as [|x todo IH]; intros done st v H; cbn [length for_each_loop l_map].
      - cbn. auto.
      - eapply okr_reads. { rewrite (RC_get_lawful _ H), nthN_middle. reflexivity. }
        destruct (f st x) as [[y st']|].
        + eapply okr_bind_mono.
          * apply (RC_set_lawful (i := lenN done) y H). rewrite lenN_app, lenN_cons. lia.
          * intros u v1 H1. cbv beta in H1. rewrite updN_app_r in H1.
            replace (done ++ y :: todo) with ((done ++ [y]) ++ todo) in H1 by (rewrite <- app_assoc; reflexivity).
            replace (lenN done + 1) with (lenN (done ++ [y])) by (rewrite lenN_app; reflexivity).
            eapply okr_mono; [apply (IH (done ++ [y]) st' v1 H1)|..].
            -- intros r v'. destruct (l_map f st' todo) as [K o]. rewrite <- app_assoc. auto.
            -- intros k v'. destruct (l_map f st' todo) as [K o]. rewrite <- app_assoc. auto.
          * intros k s [].
        + cbn. auto.
    Qed.
    Lemma RC_for_each St (f : St -> T -> option (T * St)) cl l st v : RC cl v (D l) ->
      okr (fun r v' => let '(K, o) := l_map f st l in o = Some r /\ RC cl v' (D K))
          (fun k v' => let '(K, o) := l_map f st l in
             k = PUser /\ o = None /\ RC cl v' (D (K ++ skipn (length K) l)))
          (for_each c E f st v).
    Proof.
      intros H. unfold for_each. eapply okr_reads; [reflexivity|]. unfold len. rewrite (rc_num H), lenN_map, lenN_to_nat.
      apply (RC_for_each_loop f (done := []) st H).
    Qed.
  End Closures.

  (** closures on vectors whose slots may hold anything *)
  Lemma WF_get v i : WF v -> i < num v -> exists o, get c E i v = o /\
    ((exists x, o = Ret (Some x)) \/ o = Panic PDiscr).
  Proof.
    intros Hw Hi. eexists; split; [reflexivity|].
    pose proof (WF_RC Hc Hcomp Hd Hw) as H. rewrite (RC_get Hc Hcomp Hd _ H).
    rewrite (rc_num H) in Hi. destruct (nthN_lt_Some Hi) as [d Hdn]. rewrite Hdn. unfold from_discr.
    destruct (from_d E d); cbn; eauto.
  Qed.
  Lemma WF_set v i x : WF v -> i < num v -> exists v', set c E i x v = (Ret tt, v') /\ WF v' /\ num v' = num v.
  Proof.
    intros Hw Hi. pose proof (wf_cover Hw) as Hcv. unfold set, set_raw, len.
    rewrite (proj2 (N.leb_gt _ _)) by exact Hi.
    rewrite (set_raw_unchecked_spec Hc Hcomp) by lia. eexists; split; [reflexivity|].
    split; [apply (WF_set_at Hc Hcomp), Hw|apply (num_set_at Hc Hcomp)].
  Qed.
  Lemma WF_retain_loop St (f : St -> T -> option (bool * St)) n : forall i s st v,
    WF v -> s <= i -> i + N.of_nat n = num v ->
    okr (fun r v' => WF v' /\ num v' = num v /\ fst r <= num v) (fun k v' => WF v' /\ num v' = num v /\ (k = PUser \/ k = PDiscr))
        (retain_loop c E f n i s st v).
  Proof.
    induction n as [|n IH]; intros i s st v Hw Hs Hn; cbn [retain_loop].
    - cbn. split; [exact Hw|split; [reflexivity|lia]].
    - destruct (WF_get Hw (i := i)) as [o [Ho [[x ->]| ->]]]; [lia| |].
      + eapply okr_reads; [rewrite Ho; reflexivity|]. destruct (f st x) as [[[|] st']|].
        * destruct (WF_set (i := s) x Hw) as [v' [Hv' [Hw' Hn']]]; [lia|]. unfold bind at 1. rewrite Hv'.
          eapply okr_mono; [apply (IH (i + 1) (s + 1) st' v' Hw'); lia|..].
          -- intros r s0 [G1 [G2 G3]]. split; [exact G1|split; lia].
          -- intros k s0 [G1 [G2 G3]]. split; [exact G1|split; [lia|exact G3]].
        * apply (IH (i + 1) s st' v Hw); lia.
        * cbn. auto.
      + unfold bind, reads. rewrite Ho. cbn. auto.
  Qed.
  Lemma WF_retain St (f : St -> T -> option (bool * St)) st v : WF v ->
    okr (fun r v' => WF v') (fun k v' => WF v' /\ num v' = num v /\ (k = PUser \/ k = PDiscr)) (retain c E f st v).
  Proof.
    intros Hw. unfold retain. eapply okr_reads; [reflexivity|]. unfold len.
    eapply okr_bind_mono; [apply (WF_retain_loop f (n := N.to_nat (num v)) (i := 0) (s := 0) st Hw); lia| |auto].
    intros r v1 [G1 [G2 G3]]. cbn. destruct G1 as [W1 W2 W3 W4 W5]. constructor; cbn; try assumption; lia.
  Qed.
  Lemma WF_for_each_loop St (f : St -> T -> option (T * St)) n : forall i st v,
    WF v -> i + N.of_nat n = num v ->
    okr (fun r v' => WF v' /\ num v' = num v) (fun k v' => WF v' /\ num v' = num v /\ (k = PUser \/ k = PDiscr))
        (for_each_loop c E f n i st v).
  Proof.
    induction n as [|n IH]; intros i st v Hw Hn; cbn [for_each_loop].
    - cbn. auto.
    - destruct (WF_get Hw (i := i)) as [o [Ho [[x ->]| ->]]]; [lia| |].
      + eapply okr_reads; [rewrite Ho; reflexivity|]. destruct (f st x) as [[y st']|].
        * destruct (WF_set (i := i) y Hw) as [v' [Hv' [Hw' Hn']]]; [lia|]. unfold bind at 1. rewrite Hv'.
          eapply okr_mono; [apply (IH (i + 1) st' v' Hw'); lia|..].
          -- intros r s0 [G1 G2]. split; [exact G1|lia].
          -- intros k s0 [G1 [G2 G3]]. split; [exact G1|split; [lia|exact G3]].
        * cbn. auto.
      + unfold bind, reads. rewrite Ho. cbn. auto.
  Qed.
  Lemma WF_for_each St (f : St -> T -> option (T * St)) st v : WF v ->
    okr (fun r v' => WF v' /\ num v' = num v) (fun k v' => WF v' /\ num v' = num v /\ (k = PUser \/ k = PDiscr)) (for_each c E f st v).
  Proof.
    intros Hw. unfold for_each. eapply okr_reads; [reflexivity|]. unfold len. apply WF_for_each_loop; [exact Hw|lia].
  Qed.

  (** append *)
  Lemma RC_append_loop cl cl' w es sl : RC cl' w es -> forall n i v pre junk,
    RC cl v (pre ++ junk) -> lenN pre = sl + i -> lenN junk = N.of_nat n -> i + N.of_nat n = lenN es ->
    okr (fun _ s => RC cl (fst s) (pre ++ skipn (N.to_nat i) es) /\ snd s = w) never
      (for_range n i (fun i =>
        idx <- lift (uadd c sl i) ;;
        d <- reads (fun s => get_raw_unchecked c E i (snd s)) ;;
        on_fst (set_raw_unchecked c E idx d)) (v, w)).
  Proof.
    intros Hw. induction n as [|n IH]; intros i v pre junk H Hpre Hj Hi; cbn [for_range].
    - cbn. rewrite (lenN_nil_inv Hj) in H. rewrite skipn_all2 by (unfold lenN in *; lia). auto.
    - destruct (lenN_cons_inv Hj) as [y [junk2 [-> Hj2]]].
      pose proof (RC_max Hc Hcomp Hd H) as Hsm. rewrite lenN_app, lenN_cons in Hsm.
      destruct (@nthN_lt_Some _ es i) as [d Hdn]; [lia|].
      apply okr_bind. eapply okr_lift. { apply (uadd_ok Hc Hcomp). lia. }
      eapply okr_reads. { cbn [snd]. apply (RC_get_raw_unchecked Hc Hcomp Hd Hw Hdn). }
      apply okr_on_fst. cbn [fst snd].
      eapply okr_mono.
      + apply (RC_set_raw_unchecked Hc Hcomp Hd (i := sl + i) (d := d) H).
        * rewrite lenN_app, lenN_cons. lia.
        * apply (RC_lt2 Hc Hcomp Hd Hw Hdn).
      + intros u v1 H1. cbv beta in H1. rewrite <- Hpre, updN_app_r in H1.
        replace (pre ++ d :: junk2) with ((pre ++ [d]) ++ junk2) in H1 by (rewrite <- app_assoc; reflexivity).
        eapply okr_mono; [apply (IH (i + 1) v1 (pre ++ [d]) junk2 H1)|..].
        * rewrite lenN_app. cbn. lia.
        * exact Hj2.
        * lia.
        * intros u2 s. rewrite (nthN_skip Hdn), <- app_assoc. auto.
        * auto.
      + intros k s [].
  Qed.

  Lemma RC_concat cl cl' v w ds es cap : RC cl v ds -> RC cl' w es -> lenN ds = P * vlen (storage v) ->
    vlen (storage v) + vlen (storage w) <= cap -> cap <= alloc_max c -> lenN ds + lenN es <= usize_max c ->
    RC (cl && cl') (mkEv (mkRvec (data (storage v) ++ data (storage w)) cap) (lenN ds + lenN es)) (ds ++ es).
  Proof.
    intros H H' Hal Hcap Hmax Hum. pose proof (Ppos Hc Hcomp Hd) as HP. pose proof (RC_cover Hc Hcomp Hd H') as Hcv.
    assert (Hvl : vlen (storage v) = lenN (data (storage v))) by reflexivity.
    constructor; cbn.
    - constructor; cbn.
      + apply Forall_app; split; [apply (wf_blocks (rc_wf H))|apply (wf_blocks (rc_wf H'))].
      + unfold vlen in *; cbn. rewrite lenN_app. lia.
      + unfold vlen in *; cbn. rewrite lenN_app. lia.
      + exact Hmax.
      + exact Hum.
    - rewrite lenN_app. reflexivity.
    - intros i d Hi. unfold EvFacts.slotv; cbn. destruct (N.lt_ge_cases i (lenN ds)) as [Hlt|Hge].
      + rewrite nthN_app_l in Hi by exact Hlt. rewrite nthN_app_l.
        * apply (rc_slot H Hi).
        * apply N.div_lt_upper_bound; [lia|]. rewrite <- Hvl. lia.
      + rewrite nthN_app_r in Hi by exact Hge. rewrite <- (rc_slot H' Hi). unfold EvFacts.slotv.
        assert (Hii : i = (i - lenN ds) + vlen (storage v) * P) by lia.
        set (j := i - lenN ds) in *. clearbody j. subst i.
        rewrite N.div_add, N.mod_add by lia. rewrite nthN_app_r by (rewrite <- Hvl; apply N.le_add_l).
        rewrite <- Hvl, N.add_sub. reflexivity.
    - intros Hcl. apply andb_true_iff in Hcl. destruct Hcl as [-> ->]. intros k. unfold wastev; cbn.
      destruct (N.lt_ge_cases k (lenN (data (storage v)))) as [Hlt|Hge].
      + rewrite nthN_app_l by exact Hlt. apply (rc_clean H eq_refl k).
      + rewrite nthN_app_r by exact Hge. apply (rc_clean H' eq_refl).
  Qed.

  Lemma RC_append_slow cl cl' v w ds es : RC cl v ds -> RC cl' w es -> lenN ds mod P <> 0 ->
    okr (fun _ s => RC cl (fst s) (ds ++ es) /\ RC cl' (snd s) [] /\ storage (snd s) = storage w)
        (fun k s => cap_panic k /\ s = (v, w)) (append c E (v, w)).
  Proof.
    intros H H' Hm. unfold append, len. pose proof (Ppos Hc Hcomp Hd) as HP.
    eapply okr_reads; [reflexivity|]. eapply okr_reads; [reflexivity|]. cbn [fst snd].
    rewrite (rc_num H), (rc_num H'). rewrite (proj2 (N.eqb_neq _ _)) by exact Hm.
    assert (HP2 : 2 <= P). { destruct (N.eq_dec P 1) as [H1|]; [|lia]. rewrite H1, N.mod_1_r in Hm. congruence. }
    destruct (N.le_gt_cases (lenN ds + lenN es) (usize_max c)) as [Hle|Hgt].
    - eapply okr_bind_mono.
      { apply (okr_fst (s := (v, w))). apply (RC_reserve Hc Hcomp Hd H Hle). left; exact HP2. }
      2:{ intros k [v1 w1]. cbn [fst snd]. intros [[-> ->] ->]. split; [left; reflexivity|reflexivity]. }
      intros u [v1 w1]. cbn [fst snd]. intros [[H1 [Hn Hv]] Hw1]. subst w1.
      eapply okr_lift. { apply (uadd_ok Hc Hcomp). exact Hle. }
      assert (Hlt : lenN ds + lenN es < P * vlen (storage v1)).
      { rewrite Hv. pose proof (N.mul_succ_div_gt (lenN ds + lenN es) P ltac:(lia)). lia. }
      destruct (RC_set_len Hc Hcomp Hd H1 (n := lenN ds + lenN es)) as [junk [Hj HLj]]; [lia|lia|].
      rewrite firstn_lenN in Hj by lia.
      unfold bind at 1. cbn [on_fst set_len fst snd].
      eapply okr_bind_mono.
      { apply (RC_append_loop (sl := lenN ds) H' (n := N.to_nat (lenN es)) (i := 0) Hj); lia. }
      2:{ intros k s []. }
      intros u2 [v2 w2]. cbn [fst snd]. intros [G1 ->].
      apply okr_on_snd. cbn [fst snd].
      eapply okr_mono; [apply (RC_truncate Hc Hcomp Hd 0 H')|..].
      + intros u3 w3 [G2 G3]. cbn [fst snd]. cbn in G1. auto.
      + intros k s [].
    - unfold bind at 1, on_fst at 1. cbn [fst snd].
      rewrite (RC_reserve_overflow Hc Hcomp Hd H Hgt). cbn. split; [right; reflexivity|reflexivity].
  Qed.

  (** the aligned path: self is right; other is emptied properly only by the smallvec version *)
  Lemma RC_append_fast cl cl' v w ds es : RC cl v ds -> RC cl' w es -> lenN ds mod P = 0 ->
    fixable c E (lenN es) -> (need c E (lenN ds) + need c E (lenN es) <= alloc_max c -> lenN ds + lenN es <= usize_max c) ->
    okr (fun _ s => RC (cl && cl') (fst s) (ds ++ es) /\
           if small c then RC cl' (snd s) []
           else num (snd s) = lenN es /\ data (storage (snd s)) = [] /\ vcap (storage (snd s)) = vcap (storage w))
        (fun k s => k = PCapacity /\ RC cl (fst s) ds /\ RC cl' (snd s) es) (append c E (v, w)).
  Proof.
    intros H H' Hm Hfx Hum. unfold append, len. pose proof (Ppos Hc Hcomp Hd) as HP.
    eapply okr_reads; [reflexivity|]. eapply okr_reads; [reflexivity|]. cbn [fst snd].
    rewrite (rc_num H), (rc_num H'). rewrite (proj2 (N.eqb_eq _ _)) by exact Hm.
    pose proof (N.div_mod (lenN ds) P ltac:(lia)) as Hdm. rewrite Hm in Hdm.
    assert (Hneed : P * need c E (lenN ds) = lenN ds).
    { pose proof (need_cover Hc Hcomp (n := lenN ds)). pose proof (need_mono Hc Hcomp (n := lenN ds) (k := lenN ds / P) ltac:(lia)). nia. }
    eapply okr_bind_mono.
    { apply (okr_fst (s := (v, w))). apply (RC_fix_storage Hc Hcomp Hd (aligned_fixable Hc Hcomp Hm (RC_max Hc Hcomp Hd H)) H). }
    2:{ intros k s [[] _]. }
    intros u [v1 w1]. cbn [fst snd]. intros [[H1 [Hn1 [Hv1 Hc1]]] Hw1]. subst w1.
    eapply okr_bind_mono.
    { apply (okr_snd (s := (v1, w))). apply (RC_fix_storage Hc Hcomp Hd Hfx H'). }
    2:{ intros k s [[] _]. }
    intros u2 [v2 w2]. cbn [fst snd]. intros [[H2 [Hn2 [Hv2 Hc2]]] Hv1e]. subst v2.
    eapply okr_reads; [reflexivity|]. cbn [fst snd].
    unfold bind at 1, on_fst at 1, on_storage, vec_extend_from. cbn [fst snd].
    destruct (vec_ensure_cases Hc Hcomp Hd (vlen (storage v1) + lenN (data (storage w2))) (wf_alloc (rc_wf H1)))
      as [[cap' [-> [G1 [G2 G3]]]]|[->| ->]]; cbn [obind data vcap].
    2:{ cbn. auto. }
    2:{ exact I. }
    assert (Hsm : lenN ds + lenN es <= usize_max c).
    { apply Hum. unfold vlen in *. lia. }
    assert (Hcat : RC (cl && cl') (mkEv (mkRvec (data (storage v1) ++ data (storage w2)) cap') (lenN ds + lenN es)) (ds ++ es)).
    { apply RC_concat; try assumption. rewrite Hv1. symmetry. exact Hneed. }
    destruct (small c).
    - unfold bind at 1, on_snd at 1. cbn [fst snd].
      pose proof (RC_truncate Hc Hcomp Hd 0 H2) as Ht. unfold clear.
      destruct (truncate 0 w2) as [[u3|k| |] w3]; cbn in Ht; try contradiction; try exact I.
      destruct Ht as [Ht _]. cbn [fst snd].
      eapply okr_reads. { cbn [fst snd num]. rewrite (rc_num H1). apply (uadd_ok Hc Hcomp). lia. }
      cbn. split; [exact Hcat|exact Ht].
    - unfold bind at 1, on_snd at 1. cbn [fst snd].
      eapply okr_reads. { cbn [fst snd num]. rewrite (rc_num H1). apply (uadd_ok Hc Hcomp). lia. }
      cbn. split; [exact Hcat|]. split; [rewrite (rc_num H2); reflexivity|split; [reflexivity|congruence]].
  Qed.

  (** with_capacity, capacity *)
  Lemma capacity_ge_len v : WF v -> len v <= capacity c E v.
  Proof.
    intros Hw. unfold capacity, len. pose proof (wf_num Hw). pose proof (wf_cover Hw). pose proof (wf_cap Hw).
    apply N.min_glb; [|lia]. pose proof (Ppos Hc Hcomp Hd). nia.
  Qed.
  Lemma cap_small v : roomy c -> WF v -> capacity c E v = P * vcap (storage v).
  Proof.
    intros Hroomy Hw. unfold capacity. pose proof (wf_alloc Hw). pose proof (EPB_le_W Hc Hcomp). pose proof (usize_pow Hc Hcomp).
    unfold roomy in Hroomy. assert (P * vcap (storage v) <= W c * alloc_max c) by (apply N.mul_le_mono; lia). lia.
  Qed.
  Lemma RC_with_capacity n : n <= usize_max c ->
    ook (fun v => RC true v [] /\ (fixable c E n -> n <= capacity c E v) /\ vlen (storage v) = 0) (fun k => k = PCapacity) (with_capacity c E n).
  Proof.
    intros Hn. unfold with_capacity, vec_with_capacity. pose proof (RC_new Hc Hcomp Hd) as H0. pose proof (Ppos Hc Hcomp Hd) as HP.
    destruct (vec_ensure_cases Hc Hcomp Hd (s := vec_new c) (blocks_for_elements c E n) (wf_alloc (rc_wf H0)))
      as [[cap' [-> [G1 [G2 G3]]]]|[->| ->]]; cbn; auto.
    assert (HR : RC true (mkEv (mkRvec [] cap') 0) []).
    { pose proof (RC_app_zero Hc Hcomp Hd (cap' := cap') (k := 0) H0) as G. cbn in G. apply G; [|exact G3].
      unfold vlen; cbn. lia. }
    split; [exact HR|split; [|reflexivity]]. intros Hfx. rewrite (blocks_for_fixable Hc Hcomp Hfx) in G1.
    unfold capacity. cbn. pose proof (need_cover Hc Hcomp (n := n)). apply N.min_glb; [|lia]. nia.
  Qed.
  (** with the bits of an allocation counted in usize, every allocation that succeeds is large enough *)
  Lemma RC_with_capacity_roomy n : roomy c -> n <= usize_max c ->
    ook (fun v => RC true v [] /\ n <= capacity c E v /\ vlen (storage v) = 0) (fun k => k = PCapacity) (with_capacity c E n).
  Proof.
    intros Hroomy Hn. pose proof (RC_with_capacity Hn) as G.
    destruct (N.le_gt_cases (n + P) (usize_max c + 1)) as [Hle|Hgt].
    - destruct (with_capacity c E n) as [v|k| |]; cbn in G |- *; auto. destruct G as [G1 [G2 G3]].
      split; [exact G1|split; [apply G2, (fixable_small Hc Hcomp Hle)|exact G3]].
    - unfold with_capacity, vec_with_capacity in *. pose proof (RC_new Hc Hcomp Hd) as H0. pose proof (Ppos Hc Hcomp Hd) as HP.
      destruct (vec_ensure_cases Hc Hcomp Hd (s := vec_new c) (blocks_for_elements c E n) (wf_alloc (rc_wf H0)))
        as [[cap' [-> [G1 [G2 G3]]]]|[->| ->]]; cbn; auto.
      exfalso. pose proof (EPB_le_W Hc Hcomp). pose proof (usize_pow Hc Hcomp). unfold roomy in Hroomy. unfold blocks_for_elements in G1.
      pose proof (N.mul_succ_div_gt (N.min (n + (P - 1)) (usize_max c)) P ltac:(lia)) as Hs.
      assert (N.min (n + (P - 1)) (usize_max c) < P * (cap' + 1)) by nia.
      assert (P * (cap' + 1) <= W c * (alloc_max c + 1)) by (apply N.mul_le_mono; lia). lia.
  Qed.
  Lemma append_fits : roomy c -> forall m n, need c E m + need c E n <= alloc_max c -> m + n <= usize_max c.
  Proof.
    intros Hroomy m n Ha. pose proof (need_cover Hc Hcomp (n := m)). pose proof (need_cover Hc Hcomp (n := n)).
    pose proof (EPB_le_W Hc Hcomp). pose proof (usize_pow Hc Hcomp). unfold roomy in Hroomy.
    assert (P * (need c E m + need c E n) <= W c * alloc_max c) by (apply N.mul_le_mono; lia). lia.
  Qed.
End More.
