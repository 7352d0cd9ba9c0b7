(** UserTruth3.v -- truthful user code that may panic: extend and resize. *)
From Verif Require Export UserTruth2.
From Coq Require Import ZifyBool ZifyNat ZifyN.
Open Scope N_scope.
Set Implicit Arguments.
Unset Strict Implicit.
Set Default Proof Using "Type*".

Section Truth3.
  Context {U T : Type} {c : cfg} {E : enumlike T} {X : usercode U T}.
  Local Notation B := (BITS E).
  Local Notation P := (EPB c E).
  Local Notation D := (map (to_d E)).
  Local Notation RC := (RC c E).
  Local Notation MW := (M (ev * U)).
  Hypothesis Hs : setting c E.
  Hypothesis Ht : truthful E X.
  Hypothesis Hsane : sane_user X.
  Local Notation Hc := (s_ok Hs).
  Local Notation Hcomp := (s_comp Hs).
  Local Notation Hai := (s_alloc Hs).
  Local Notation Hd := (s_d Hs).
  Local Notation Hfd := (s_fd Hs).

  Section Extend.
    Context {I : Type} (next : I -> M U (option T * I)) (log : U -> list T).
    Hypothesis Hq : quiet_user log X.
    Hypothesis Hn : forall it, sane (next it).
    Hypothesis Hr : forall it, records log (next it) (fun r => match fst r with Some x => [x] | None => [] end).

    Lemma t_known n : forall i sl it s pre junk, RC false (fst s) (pre ++ junk) -> lenN pre = sl + i -> lenN junk = N.of_nat n ->
      okr (fun _ s' => exists xs, length xs = n /\ log (snd s') = log (snd s) ++ xs /\ RC false (fst s') (pre ++ D xs))
          (fun k s' => exists xs ys junk', (length xs <= n)%nat /\ log (snd s') = log (snd s) ++ xs /\ nearly ys xs /\ (ys <> xs -> users X k) /\
             lenN ys + lenN junk' = N.of_nat n /\ RC false (fst s') (pre ++ D ys ++ junk'))
          (w_known c X next n i sl it s).
    Proof.
      induction n as [|n IH]; intros i sl it s pre junk H Hpre Hj; cbn [w_known].
      - cbn. exists []. rewrite (lenN_nil_inv Hj) in H. cbn. rewrite !app_nil_r in *. auto.
      - destruct (lenN_cons_inv Hj) as [y [junk2 [-> Hj2]]].
        pose proof (RC_max Hc Hcomp Hd H) as Hsm. rewrite lenN_app, lenN_cons in Hsm.
        assert (Hstop : forall k s', fst s' = fst s -> log (snd s') = log (snd s) ->
          exists xs ys junk', (length xs <= S n)%nat /\ log (snd s') = log (snd s) ++ xs /\ nearly ys xs /\ (ys <> xs -> users X k) /\
             lenN ys + lenN junk' = N.of_nat (S n) /\ RC false (fst s') (pre ++ D ys ++ junk')).
        { intros k s' G1 G2. exists [], [], (y :: junk2). cbn [map app length]. rewrite G1, G2, app_nil_r. split; [lia|]. split; [reflexivity|]. split; [left; reflexivity|].
          split; [intros Z; contradiction Z; reflexivity|]. split; [exact Hj|exact H]. }
        eapply okr_lift. { apply (uadd_ok Hc Hcomp). lia. }
        eapply okr_bind_mono; [apply (logged_user Hs Ht Hsane s (@Hn it) (@Hr it))| |intros k s' [G1 G2]; apply Hstop; assumption].
        intros [[x|] it'] s1 [G1 G2]; cbn [fst snd] in *.
        + eapply okr_lift; [reflexivity|]. rewrite <- G1 in H.
          eapply okr_bind_mono; [apply (l_set Hs Ht Hsane (i := sl + i) Hq x H); rewrite lenN_app, lenN_cons; lia|..].
          * intros u s2 [H1 G3]. rewrite <- Hpre, updN_app_r in H1. rewrite G2 in G3.
            replace (pre ++ to_d E x :: junk2) with ((pre ++ [to_d E x]) ++ junk2) in H1 by (rewrite <- app_assoc; reflexivity).
            eapply okr_mono; [apply (IH (i + 1) sl it' s2 _ _ H1); [rewrite lenN_app; cbn; lia|exact Hj2]|..].
            -- intros it2 s' [xs [Q1 [Q2 Q3]]]. exists (x :: xs). rewrite <- app_assoc in Q3. cbn [length map].
               split; [lia|]. split; [rewrite Q2, G3, <- app_assoc; reflexivity|exact Q3].
            -- intros k s' [xs [ys [junk' [Q1 [Q2 [Q3 [Q4 [Q5 Q6]]]]]]]]. exists (x :: xs), (x :: ys), junk'. rewrite <- app_assoc in Q6. cbn [length map].
               split; [lia|]. split; [rewrite Q2, G3, <- app_assoc; reflexivity|].
               split; [destruct Q3 as [->|[z ->]]; [left; reflexivity|right; exists z; reflexivity]|].
               split; [intros Z; apply Q4; congruence|]. split; [rewrite lenN_cons; lia|exact Q6].
          * intros k s' [[G3 G4] G5]. exists [x], [], (y :: junk2). cbn [map app length]. rewrite G3, G5.
            split; [lia|]. split; [exact G2|]. split; [right; exists x; reflexivity|]. split; [intros _; exact G4|]. split; [exact Hj|exact H].
        + cbn. rewrite app_nil_r in G2. apply Hstop; assumption.
    Qed.
    Lemma t_rest fuel : forall it s ds, RC false (fst s) ds ->
      okr (fun _ s' => exists xs, log (snd s') = log (snd s) ++ xs /\ RC false (fst s') (ds ++ D xs))
          (fun k s' => exists xs ys junk, log (snd s') = log (snd s) ++ xs /\ nearly ys xs /\ (ys <> xs -> users X k \/ cap_panic k) /\
             lenN ys + lenN junk <= lenN xs /\ RC false (fst s') (ds ++ D ys ++ junk))
          (w_rest c X next fuel it s).
    Proof.
      induction fuel as [|fuel IH]; intros it s ds H; cbn [w_rest]; [exact Logic.I|].
      eapply okr_bind_mono; [apply (logged_user Hs Ht Hsane s (@Hn it) (@Hr it))|..].
      2:{ intros k s' [G1 G2]. exists [], [], []. cbn. rewrite !app_nil_r, G1, G2. split; [reflexivity|]. split; [left; reflexivity|].
          split; [intros Z; contradiction Z; reflexivity|]. split; [reflexivity|exact H]. }
      intros [[x|] it'] s1 [G1 G2]; cbn [fst snd] in *.
      - rewrite <- G1 in H. eapply okr_bind_mono; [apply (l_push Hs Ht Hsane Hq x H)|..].
        + intros u s2 [H1 G3]. rewrite G2 in G3. eapply okr_mono; [apply (IH it' s2 _ H1)|..].
          * intros a s' [xs [Q1 Q2]]. exists (x :: xs). rewrite <- app_assoc in Q2. split; [rewrite Q1, G3, <- app_assoc; reflexivity|exact Q2].
          * intros k s' [xs [ys [junk [Q1 [Q2 [Q3 [Q4 Q5]]]]]]]. exists (x :: xs), (x :: ys), junk. rewrite <- app_assoc in Q5.
            split; [rewrite Q1, G3, <- app_assoc; reflexivity|].
            split; [destruct Q2 as [->|[z ->]]; [left; reflexivity|right; exists z; reflexivity]|].
            split; [intros Z; apply Q3; congruence|]. split; [rewrite !lenN_cons; lia|exact Q5].
        + intros k s' [[[G3 G4]|[G3 [j G4]]] G5].
          * exists [x], [], []. cbn. rewrite app_nil_r. split; [congruence|]. split; [right; exists x; reflexivity|]. split; [auto|]. split; [lia|exact G4].
          * exists [x], [], [j]. cbn. split; [congruence|]. split; [right; exists x; reflexivity|]. split; [auto|]. split; [lia|exact G4].
      - cbn. exists []. cbn. rewrite app_nil_r in *. rewrite G1, G2. rewrite app_nil_r. split; [reflexivity|exact H].
    Qed.
    Lemma t_extend fuel hint it v l u : sane hint -> quiet log hint -> hints c X hint -> holds c E v l ->
      result (w_extend c X next fuel hint it (v, u))
        (fun _ s' => exists xs, log (snd s') = log u ++ xs /\ holds c E (fst s') (l ++ xs) /\ forall n, fst (hint u) = Ret n -> n <= lenN xs)
        (fun k s' => exists xs ys, log (snd s') = log u ++ xs /\ nearly ys xs /\ (ys <> xs -> users X k \/ no_room k) /\
           begins c E (fst s') (l ++ ys) /\ (forall n, fst (hint u) = Ret n -> len (fst s') <= lenN l + N.max n (lenN xs)) /\
           ((forall n, fst (hint u) <> Ret n) -> fst s' = v)).
    Proof.
      intros Hh1 Hh2 Hh3 H. pose proof H as H0. apply (holds_RC Hs) in H. unfold w_extend.
      assert (Hstop : forall k s', fst s' = v -> log (snd s') = log u ->
        exists xs ys, log (snd s') = log u ++ xs /\ nearly ys xs /\ (ys <> xs -> users X k \/ no_room k) /\
           begins c E (fst s') (l ++ ys) /\ (forall n, fst (hint u) = Ret n -> len (fst s') <= lenN l + N.max n (lenN xs)) /\
           ((forall n, fst (hint u) <> Ret n) -> fst s' = v)).
      { intros k s' G1 G2. exists [], []. rewrite !app_nil_r, G1, G2. split; [reflexivity|]. split; [left; reflexivity|].
        split; [intros Z; contradiction Z; reflexivity|]. assert (H' : RC false v (D l ++ [])) by (rewrite app_nil_r; exact H).
        destruct (RC_begins Hs H') as [K1 K2]. split; [exact K1|]. split; [intros n _; rewrite K2; cbn; lia|auto]. }
      specialize (Hh3 u).
      eapply (okr_bind_mono (Q1 := fun n s' => fst s' = v /\ log (snd s') = log u /\ fst (hint u) = Ret n)
        (F1 := fun k s' => fst s' = v /\ log (snd s') = log u)); [| |intros k s' [G1 G2]; apply Hstop; assumption].
      { specialize (Hh1 u). specialize (Hh2 u). unfold user, on_snd. cbn [fst snd]. destruct (hint u) as [[n|k| |] u'] eqn:Hu; cbn in *; rewrite ?app_nil_r in *; auto. }
      intros n s1 [G1 [G2 G3]]. rewrite G3 in Hh3. cbn in Hh3. rewrite <- G1 in H.
      unfold self_get at 1. eapply (okr_reads (a := lenN l)). { unfold len. rewrite (rc_num H), lenN_map. reflexivity. }
      assert (Hfit : reserve_fits c E (lenN (D l)) n).
      { rewrite (shp Ht Hsane) in Hh3. exact (amount_fits Hc Hcomp Hai Hd H Hh3). }
      destruct (N.le_gt_cases (lenN (D l) + n) (usize_max c)) as [Hle|Hgt].
      2:{ unfold bind at 1, self, on_fst. rewrite (shp Ht Hsane). change (reserve c (bare E) n (fst s1)) with (reserve c E n (fst s1)).
          rewrite (RC_reserve_overflow Hc Hcomp Hd H Hgt). cbn. apply Hstop; assumption. }
      assert (Hres := okr_fst (s := s1) (RC_reserve Hc Hcomp Hd H Hle Hfit)). rewrite (shp Ht Hsane).
      eapply okr_bind_mono; [exact Hres| |].
      2:{ intros k s' [[_ G4] G5]. apply Hstop; congruence. }
      intros a s2 [[H1 [Hn1 Hv1]] G4]. rewrite <- G4 in G2. clear Hres. rewrite lenN_map in Hle.
      assert (Hlt : lenN l + n < P * vlen (storage (fst s2))).
      { rewrite Hv1, lenN_map. pose proof (Ppos Hc Hcomp Hd) as HP. pose proof (N.mul_succ_div_gt (lenN l + n) P ltac:(lia)). lia. }
      unfold self_get. eapply okr_reads. { rewrite Hn1, (rc_num H), lenN_map. apply (uadd_ok Hc Hcomp). exact Hle. }
      unfold bind at 1, self at 1, on_fst at 1, set_len.
      destruct (RC_set_len Hc Hcomp Hd H1 (n := lenN l + n)) as [junk [Hj HLj]]; [lia|lia|].
      rewrite firstn_lenN in Hj by (rewrite lenN_map; lia). rewrite lenN_map in HLj.
      assert (Hno : forall Q : Prop, (forall n0, fst (hint u) <> Ret n0) -> Q) by (intros Q Z; exfalso; exact (Z n G3)).
      eapply okr_bind_mono; [apply (t_known (n := N.to_nat n) (i := 0) (sl := lenN l) it (s := (_, _)) Hj); [rewrite lenN_map; lia|lia]|..].
      - intros it' s3 [xs [Q1 [Q2 Q3]]]. cbn [snd] in Q2. rewrite G2 in Q2. eapply okr_mono; [apply (t_rest fuel it' Q3)|..].
        + intros b s' [zs [Q4 Q5]]. exists (xs ++ zs). split; [rewrite Q4, Q2, <- app_assoc; reflexivity|].
          split; [apply (holds_RC Hs); rewrite !map_app, app_assoc; exact Q5|].
          intros n0 Hn0. rewrite G3 in Hn0. injection Hn0 as <-. rewrite lenN_app. unfold lenN at 1. lia.
        + intros k s' [zs [ys [jk [Q4 [Q5 [Q6 [Q7 Q8]]]]]]]. exists (xs ++ zs), (xs ++ ys).
          split; [rewrite Q4, Q2, <- app_assoc; reflexivity|].
          split; [destruct Q5 as [->|[z ->]]; [left; reflexivity|right; exists z; rewrite app_assoc; reflexivity]|].
          split; [intros Z; apply Q6; congruence|].
          replace ((D l ++ D xs) ++ D ys ++ jk) with (D (l ++ xs ++ ys) ++ jk) in Q8 by (rewrite !map_app, <- !app_assoc; reflexivity).
          destruct (RC_begins Hs Q8) as [K1 K2]. split; [exact K1|]. split; [|apply Hno].
          intros n0 Hn0. rewrite G3 in Hn0. injection Hn0 as <-. rewrite K2, !lenN_app. lia.
      - intros k s3 [xs [ys [jk [Q1 [Q2 [Q3 [Q4 [Q5 Q6]]]]]]]]. cbn [snd] in Q2. rewrite G2 in Q2. exists xs, ys.
        split; [exact Q2|]. split; [exact Q3|]. split; [intros Z; left; apply Q4; exact Z|].
        rewrite app_assoc, <- map_app in Q6. destruct (RC_begins Hs Q6) as [K1 K2]. split; [exact K1|]. split; [|apply Hno].
        intros n0 Hn0. rewrite G3 in Hn0. injection Hn0 as <-. rewrite K2, !lenN_app. lia.
    Qed.
  End Extend.

  (** *** repeat(x).take(n), resize *)
  (** v still begins with ds, and has at most n more elements *)
  Definition longer (ds : list N) (n : N) (v : ev) : Prop := exists junk, lenN junk <= n /\ RC false v (ds ++ junk).
  Lemma t_take x n : forall i sl m s pre junk, RC false (fst s) (pre ++ junk) -> lenN pre = sl + i -> lenN junk = N.of_nat n -> m = N.of_nat n ->
    okr (fun m' s' => m' = 0 /\ RC false (fst s') (pre ++ repeat (to_d E x) n)) (fun _ s' => longer pre (N.of_nat n) (fst s'))
        (w_known c X (take_next X x) n i sl m s).
  Proof.
    induction n as [|n IH]; intros i sl m s pre junk H Hpre Hj Hm; cbn [w_known].
    - cbn. rewrite (lenN_nil_inv Hj) in H. split; [exact Hm|exact H].
    - destruct (lenN_cons_inv Hj) as [y [junk2 [-> Hj2]]].
      pose proof (RC_max Hc Hcomp Hd H) as Hsm. rewrite lenN_app, lenN_cons in Hsm.
      eapply okr_lift. { apply (uadd_ok Hc Hcomp). lia. }
      unfold take_next at 1. rewrite (proj2 (N.eqb_neq m 0)) by lia.
      assert (Hstop : longer pre (N.of_nat (S n)) (fst s)) by (exists (y :: junk2); split; [lia|exact H]).
      assert (Hz0 : sane (z <- u_clone X x ;; ret (Some z, m - 1))).
      { intros u. unfold bind. pose proof (t_clone Ht Hsane (x := x) (u := u)) as Z. destruct (u_clone X x u) as [[z|k| |] u']; try discriminate. contradiction Z. reflexivity. }
      eapply okr_bind_mono; [apply (UserFacts.okr_snd (s := s) (Hz0 (snd s)))| |intros k s' [-> _]; exact Hstop].
      intros r s1 [G1 G2]. assert (Hr : r = (Some x, m - 1)).
      { unfold bind in G2. destruct (u_clone X x (snd s)) as [[z|k| |] u'] eqn:Hu; try discriminate. cbn in G2. injection G2 as <- _.
        pose proof (proj2 (proj2 (proj2 Ht)) _ _ _ _ Hu) as Hz. congruence. }
      rewrite Hr. cbn [fst snd]. eapply okr_lift; [reflexivity|]. rewrite <- G1 in H.
      eapply okr_bind_mono; [apply (fo_okr Hs Ht Hsane (fo_set (c := c) Ht Hsane (sl + i) x s1) (RC_set_raw Hc Hcomp Hd (i := sl + i) (d := to_d E x) H ltac:(rewrite lenN_app, lenN_cons; lia) (Hd x)))|..].
      2:{ intros k s' [[]|[-> _]]. rewrite G1. exact Hstop. }
      intros u s2 H1. cbv beta in H1. rewrite <- Hpre, updN_app_r in H1.
      replace (pre ++ to_d E x :: junk2) with ((pre ++ [to_d E x]) ++ junk2) in H1 by (rewrite <- app_assoc; reflexivity).
      eapply okr_mono; [apply (IH (i + 1) sl (m - 1) s2 _ _ H1); [rewrite lenN_app; cbn; lia|exact Hj2|lia]|..].
      + intros m' s' [Q1 Q2]. split; [exact Q1|]. rewrite <- app_assoc in Q2. exact Q2.
      + intros k s' [jk [Q1 Q2]]. exists (to_d E x :: jk). rewrite <- app_assoc in Q2. split; [rewrite lenN_cons; lia|exact Q2].
  Qed.
  Lemma t_repeat x n v ds u : RC false v ds -> lenN ds + n <= usize_max c -> reserve_fits c E (lenN ds) n ->
    okr (fun _ s' => RC false (fst s') (ds ++ repeat (to_d E x) (N.to_nat n))) (fun _ s' => longer ds n (fst s')) (w_repeat c X x n (v, u)).
  Proof.
    intros H Hle Hfit. unfold w_repeat, w_extend. unfold bind at 1, user at 1, on_snd at 1, ret at 1. cbn [fst snd].
    assert (Hstop : longer ds n v) by (exists []; rewrite app_nil_r; split; [cbn; lia|exact H]).
    unfold self_get at 1. eapply (okr_reads (a := lenN ds)). { cbn [fst]. unfold len. rewrite (rc_num H). reflexivity. }
    assert (Hres := okr_fst (s := (v, u)) (RC_reserve Hc Hcomp Hd H Hle Hfit)). rewrite (shp Ht Hsane).
    eapply okr_bind_mono; [exact Hres| |intros k s' [[_ ->] _]; exact Hstop].
    intros a s2 [[H1 [Hn1 Hv1]] _]. clear Hres.
    assert (Hlt : lenN ds + n < P * vlen (storage (fst s2))).
    { rewrite Hv1. pose proof (Ppos Hc Hcomp Hd) as HP. pose proof (N.mul_succ_div_gt (lenN ds + n) P ltac:(lia)). lia. }
    unfold self_get. eapply (okr_reads (a := lenN ds + n)). { rewrite Hn1. cbn [fst]. rewrite (rc_num H). apply (uadd_ok Hc Hcomp). exact Hle. }
    unfold bind at 1, self at 1, on_fst at 1, set_len.
    destruct (RC_set_len Hc Hcomp Hd H1 (n := lenN ds + n)) as [junk [Hj HLj]]; [lia|lia|]. rewrite firstn_lenN in Hj by lia.
    eapply okr_bind_mono; [apply (t_take x (n := N.to_nat n) (i := 0) (sl := lenN ds) (m := n) (s := (_, _)) Hj); lia|..].
    - intros m' s3 [-> K]. cbn [w_rest]. cbn. exact K.
    - intros k s3 [jk [K1 K2]]. exists jk. split; [lia|exact K2].
  Qed.
  Lemma t_fill d v ds cb (last : N) : d < 2 ^ B -> RC false v ds -> lenN ds mod P = 0 -> 1 <= cb -> lenN ds + cb * P <= usize_max c ->
    okr (fun _ v' => RC false v' (ds ++ repeat d (N.to_nat (cb * P)))) (fun _ v' => RC false v' ds) ((
        block_value <- lift (fill_pattern c 9 (cast_block c d) B) ;;
        old_len <- reads (fun v => Ret (len v)) ;;
        fix_storage c E ;;;
        on_storage (vec_reserve c (cb + (if 0 <? last then 1 else 0))) ;;;
        fill_blocks c cb block_value ;;;
        mid <- lift (umul c cb P) ;;
        n <- lift (uadd c old_len mid) ;;
        set_len n) v).
  Proof.
    intros Hdd G Hal Hcb3 Hlim. destruct (fill_pattern_ok Hc Hcomp Hd Hdd) as [bv [Hbv1 [Hbv2 Hbv3]]].
    pose proof (Ppos Hc Hcomp Hd) as HP.
    eapply okr_lift; [exact Hbv1|]. eapply okr_reads; [reflexivity|]. unfold len. rewrite (rc_num G).
    eapply okr_bind_mono; [apply (RC_fix_storage Hc Hcomp Hd); [|exact G]| |intros k s []].
    { apply (aligned_fixable Hc Hcomp); [exact Hal|apply (RC_max Hc Hcomp Hd G)]. }
    intros u2 v2 [G2 [Hn2 [Hv2 _]]].
    assert (Hal1 : lenN ds = P * need c E (lenN ds)).
    { pose proof (need_spec Hc Hcomp (lenN ds)) as [Hx1 Hx2]. pose proof (N.div_mod (lenN ds) P ltac:(lia)) as Hdm. rewrite Hal, N.add_0_r in Hdm.
      specialize (Hx2 (lenN ds / P) ltac:(lia)). apply N.le_antisymm; [exact Hx1|]. rewrite Hdm at 2. apply N.mul_le_mono_l. exact Hx2. }
    rewrite <- Hv2 in Hal1.
    pose proof (wf_alloc (rc_wf G2)) as Hal2. pose proof (wf_cap (rc_wf G2)) as Hcap2.
    unfold bind at 1. unfold on_storage at 1, vec_reserve.
    destruct (vec_ensure_cases Hc Hcomp Hd (vlen (storage v2) + (cb + (if 0 <? last then 1 else 0))) Hal2)
      as [[cap' [-> [K1 [K2 K3]]]]|[->| ->]]; cbn [okr]; [|exact G2|exact Logic.I].
    set (v2' := mkEv (mkRvec (data (storage v2)) cap') (num v2)).
    assert (G2' : RC false v2' ds).
    { unfold v2'. apply (RC_storage Hc Hcomp Hd); cbn; try exact G2.
      - apply (wf_blocks (rc_wf G2)).
      - apply (RC_cover Hc Hcomp Hd G2).
      - unfold vlen in *; cbn. lia.
      - exact K3.
      - reflexivity.
      - discriminate. }
    unfold fill_blocks.
    eapply okr_bind_mono.
    { apply (fill_blocks_loop Hc Hcomp Hd (N.to_nat cb) (cb := cb) (bv := bv) Hai 0 (v := v2')).
      - apply (wf_blocks (rc_wf G2')).
      - apply (wf_cap (rc_wf G2')).
      - apply (wf_alloc (rc_wf G2')).
      - exact Hcb3.
      - lia.
      - exact Hbv2. }
    2:{ intros k v' [-> [Q1 [[j [Q2 Q3]] [Q4 Q5]]]].
        assert (R := RC_fill_storage Hc Hcomp Hd (v := v2') (v3 := v') (ds := ds) (d := d) (bv := bv) (m := j) (cb := 0)).
        rewrite N.mul_0_l, N.add_0_r in R. cbn [N.to_nat repeat] in R. rewrite app_nil_r in R.
        replace v' with (mkEv (storage v') (lenN ds)).
        - apply R; auto; [apply N.le_0_l|apply (RC_max Hc Hcomp Hd G)].
        - destruct v' as [s' n']; cbn in *. f_equal. rewrite Q1. symmetry; apply (rc_num G2). }
    intros u3 v3 [Q1 [Q3 [Q4 Q5]]].
    assert (R : RC false (mkEv (storage v3) (lenN ds + cb * P)) (ds ++ repeat d (N.to_nat (cb * P)))).
    { apply (RC_fill_storage Hc Hcomp Hd (v := v2') (bv := bv) (m := (N.to_nat cb * N.to_nat cb)%nat)); auto.
      apply sq_le; exact Hcb3. }
    eapply okr_lift. { apply (umul_ok Hc Hcomp). lia. }
    eapply okr_lift. { apply (uadd_ok Hc Hcomp). lia. }
    exact R.
  Qed.
  Lemma t_with_value x count v ds u : RC false v ds -> lenN ds + count <= usize_max c ->
    okr (fun _ s' => RC false (fst s') (ds ++ repeat (to_d E x) (N.to_nat count))) (fun _ s' => longer ds count (fst s'))
        (w_extend_with_value c X x count (v, u)).
  Proof.
    intros H Hcount. unfold w_extend_with_value. rewrite (shp Ht Hsane). change (EPB c (bare E)) with P. change (BITS (bare E)) with B.
    pose proof (Ppos Hc Hcomp Hd) as HP.
    pose proof (isize_blocks Hc Hcomp Hai) as Hbb. pose proof (RC_cover Hc Hcomp Hd H) as Hcov0.
    pose proof (wf_cap (rc_wf H)) as Hcap0. pose proof (wf_alloc (rc_wf H)) as Hal0. pose proof (usize_max_big Hc Hcomp) as Hbig.
    destruct (N.leb_spec count (4 * P)) as [Hsm|Hf].
    - apply t_repeat; [exact H|exact Hcount|]. destruct (N.eq_dec P 1) as [H1|H1]; [right|left]; [|lia]. lia.
    - unfold self_get. eapply (okr_reads (a := lenN ds)). { cbn [fst]. unfold len. rewrite (rc_num H). reflexivity. }
      set (d := to_d E x). set (first := P - lenN ds mod P).
      assert (Hfirst : 1 <= first <= P).
      { unfold first. pose proof (N.mod_lt (lenN ds) P ltac:(lia)). lia. }
      cbv zeta. fold first.
      eapply okr_bind_mono.
      { apply (t_repeat x (n := first) u H); [lia|]. destruct (N.eq_dec P 1) as [H1|H1]; [right|left]; lia. }
      2:{ intros k s' [jk [G1 G2]]. exists jk. split; [lia|exact G2]. }
      intros a s1 G. cbv beta in G. fold d in G.
      set (ds1 := ds ++ repeat d (N.to_nat first)) in *.
      assert (Hl1 : lenN ds1 = lenN ds + first) by (unfold ds1; rewrite lenN_app, lenN_repeat; lia).
      assert (Hal1 : lenN ds1 = P * (lenN ds / P + 1)).
      { rewrite Hl1. unfold first. pose proof (N.div_mod (lenN ds) P ltac:(lia)).
        pose proof (N.mod_lt (lenN ds) P ltac:(lia)). lia. }
      set (ce := count - first). set (cb := ce / P).
      eapply okr_lift. { apply (usub_ok Hc Hcomp). lia. } fold ce. fold cb.
      assert (Hcb : P * cb <= ce) by (apply N.mul_div_le; lia).
      assert (Hcb3 : 1 <= cb) by (apply N.div_le_lower_bound; lia).
      assert (Hcbm : ce < P * (cb + 1)).
      { unfold cb. pose proof (N.mul_succ_div_gt ce P ltac:(lia)). lia. }
      eapply okr_lift. { apply (umul_ok Hc Hcomp). lia. }
      eapply okr_lift. { apply (uadd_ok Hc Hcomp). lia. }
      eapply okr_lift. { apply (usub_ok Hc Hcomp). lia. }
      set (last := count - (first + cb * P)).
      assert (Hstop : longer ds count (fst s1)).
      { exists (repeat d (N.to_nat first)). split; [rewrite lenN_repeat; lia|exact G]. }
      eapply okr_bind_mono; [apply (fo_okr Hs Ht Hsane (fo_to Ht Hsane x s1) (r0 := (Ret (to_d E x), fst s1)) (Q0 := fun d' v' => d' = d /\ v' = fst s1) (F0 := never)); split; reflexivity|..].
      2:{ intros k s' [[]|[-> _]]. exact Hstop. }
      intros d' s2 [-> G2]. rewrite <- G2 in G.
      eapply okr_bind_mono.
      { apply (okr_fst (s := s2)). apply (t_fill (d := d) (cb := cb) last (Hd x) G); [rewrite Hal1, N.mul_comm; apply N.mod_mul; lia|exact Hcb3|lia]. }
      2:{ intros k s' [K _]. exists (repeat d (N.to_nat first)). split; [rewrite lenN_repeat; lia|exact K]. }
      intros b s3 [R _]. destruct s3 as [v3 u3]. cbn [fst] in R.
      eapply okr_mono; [apply (t_repeat x (n := last) u3 R)|..].
      + rewrite lenN_app, lenN_repeat. unfold last. lia.
      + rewrite lenN_app, lenN_repeat.
        destruct (N.eq_dec P 1) as [H1|H1]; [right|left]; [|lia].
        assert (last = 0) by (unfold last; lia).
        pose proof (RC_cover Hc Hcomp Hd R) as Hx. pose proof (wf_cap (rc_wf R)) as Hx2. pose proof (wf_alloc (rc_wf R)) as Hx3.
        rewrite H1, N.mul_1_l in Hx. rewrite lenN_app, lenN_repeat in Hx. lia.
      + intros u4 s' K. cbv beta in K. fold d in K. unfold ds1 in K.
        rewrite <- !app_assoc, <- !repeat_app in K.
        replace (N.to_nat first + (N.to_nat (cb * P) + N.to_nat last))%nat with (N.to_nat count) in K by (unfold last; lia).
        exact K.
      + intros k s' [jk [Z1 Z2]]. exists (repeat d (N.to_nat first) ++ repeat d (N.to_nat (cb * P)) ++ jk).
        split; [rewrite !lenN_app, !lenN_repeat; unfold last in Z1; lia|]. unfold ds1 in Z2. rewrite <- !app_assoc in Z2. exact Z2.
  Qed.
  Lemma longer_begins l n v : longer (D l) n v -> begins c E v l /\ len v <= lenN l + n.
  Proof. intros [jk [H1 H2]]. destruct (RC_begins Hs H2) as [K1 K2]. split; [exact K1|]. rewrite K2. lia. Qed.
  Lemma t_resize v l u n x : holds c E v l -> n <= usize_max c ->
    result (w_resize c X n x (v, u)) (fun _ s' => holds c E (fst s') (l_resize l n x))
      (fun k s' => lenN l < n /\ begins c E (fst s') l /\ len (fst s') <= n).
  Proof.
    intros H Hn. pose proof H as H0. apply (holds_RC Hs) in H. unfold w_resize, self_get. eapply (okr_reads (a := lenN l)). { cbn [fst]. unfold len. rewrite (rc_num H), lenN_map. reflexivity. }
    destruct (N.ltb_spec (lenN l) n) as [Hlt|Hge].
    - eapply okr_lift. { apply (usub_ok Hc Hcomp). lia. }
      eapply okr_mono; [apply (t_with_value x (count := n - lenN l) u H); rewrite lenN_map; lia|..].
      + intros a s' G. cbv beta in G. apply (holds_RC Hs). unfold l_resize.
        rewrite (proj2 (N.ltb_lt _ _) Hlt), map_app, map_repeat. exact G.
      + intros k s' G. destruct (longer_begins G) as [G1 G2]. split; [exact Hlt|]. split; [exact G1|]. lia.
    - eapply okr_mono; [apply (okr_fst (s := (v, u)) (RC_truncate Hc Hcomp Hd n H))|..].
      + intros a s' [[G _] _]. apply (holds_RC Hs). unfold l_resize. rewrite (proj2 (N.ltb_ge _ _) Hge), <- firstn_map. exact G.
      + intros k s' [[] _].
  Qed.

  Lemma t_push_left v l x s : fst s = v -> holds c E v l ->
    follows (w_push c X x s) (push c E x v) (fun k v' => users X k /\ begins c E v' l /\ len v' = lenN l + 1).
  Proof.
    intros <- H. apply (holds_RC Hs) in H. eapply fo_mono; [exact Ht|exact Hsane|apply (fo_push (c := c) Ht Hsane x s)|].
    intros k v' [G1 [v1 [G2 [G3 ->]]]]. split; [exact G1|]. destruct (grown Hs Ht Hsane H G2 G3) as [j G]. destruct (RC_begins Hs G) as [K1 K2].
    split; [exact K1|exact K2].
  Qed.
  Lemma t_insert_left v l i x s : fst s = v -> holds c E v l ->
    follows (w_insert c X i x s) (EnumVec.insert c E i x v) (fun k v' => users X k /\ begins c E v' l /\ len v' = lenN l + 1).
  Proof.
    intros <- H. apply (holds_RC Hs) in H. eapply fo_mono; [exact Ht|exact Hsane|apply (fo_insert (c := c) Ht Hsane i x s)|].
    intros k v' [G1 [[v1 [G2 [G3 ->]]]|G2]]; (split; [exact G1|]).
    - destruct (grown Hs Ht Hsane H G2 G3) as [j G]. destruct (RC_begins Hs G) as [K1 K2]. split; [exact K1|exact K2].
    - pose proof (RC_push Hc Hcomp Hd x H) as G. rewrite G2 in G. cbn in G. destruct (RC_begins Hs G) as [K1 K2]. split; [exact K1|exact K2].
  Qed.
  Lemma t_swap_remove_left v l i s : fst s = v -> holds c E v l ->
    follows (w_swap_remove c X i s) (swap_remove c E i v) (fun k v' => users X k /\ i < lenN l /\ holds c E v' (l_swap l i (lenN l - 1))).
  Proof.
    intros <- H. eapply fo_mono; [exact Ht|exact Hsane|apply (fo_swap_remove (c := c) Ht Hsane i s)|].
    intros k v' [G1 [last [G2 G3]]]. split; [exact G1|]. pose proof (holds_len Hs H) as Hn. rewrite Hn in G2.
    destruct (N.lt_ge_cases i (lenN l)) as [Hi|Hi].
    - split; [exact Hi|]. rewrite (usub_ok Hc Hcomp) in G2 by lia. injection G2 as <-.
      destruct (swap_ok Hs (a := i) (b := lenN l - 1) H Hi) as [v2 [K1 K2]]; [lia|]. rewrite K1 in G3. injection G3 as <-. exact K2.
    - rewrite (swap_oob Hs (a := i) (b := last) H) in G3 by auto. discriminate.
  Qed.
  (** constructors *)
  Lemma t_from_elem x n u : n <= usize_max c ->
    builds (fst (w_build c (w_extend_with_value c X x n) u)) (fun v => holds c E v (repeat x (N.to_nat n))) (fun _ => True).
  Proof.
    intros Hn. assert (H : RC false (ev_new c) []) by (apply (RC_weaken Hc Hcomp Hd) with true; apply (RC_new Hc Hcomp Hd)).
    pose proof (t_with_value x (count := n) u H Hn) as G. unfold w_build.
    destruct (w_extend_with_value c X x n (ev_new c, u)) as [[a|k| |] s']; cbn in *; auto.
    apply (holds_RC Hs). rewrite map_repeat. exact G.
  Qed.
  Section Listed.
    Context (next : list T -> M U (option T * list T)).
    Hypothesis Hn1 : forall l, sane (next l).
    Hypothesis Hn2 : forall x l u r u', next (x :: l) u = (Ret r, u') -> r = (Some x, l).
    Hypothesis Hn3 : forall u, next [] u = (Ret (None, []), u).
    Lemma t_listed xs : forall i sl s pre junk, RC false (fst s) (pre ++ junk) -> lenN pre = sl + i -> lenN junk = lenN xs ->
      okr (fun rest s' => rest = [] /\ RC false (fst s') (pre ++ D xs)) (fun _ s' => True) (w_known c X next (length xs) i sl xs s).
    Proof.
      induction xs as [|x xs IH]; intros i sl s pre junk H Hpre Hj; cbn [w_known length].
      - cbn. rewrite (lenN_nil_inv Hj) in H. split; [reflexivity|exact H].
      - rewrite lenN_cons in Hj. destruct (lenN_cons_inv (l := junk) (n := length xs)) as [y [junk2 [-> Hj2]]]; [unfold lenN in *; lia|].
        pose proof (RC_max Hc Hcomp Hd H) as Hsm. rewrite lenN_app, lenN_cons in Hsm.
        eapply okr_lift. { apply (uadd_ok Hc Hcomp). lia. }
        eapply okr_bind_mono; [apply (UserFacts.okr_snd (s := s) (@Hn1 (x :: xs) (snd s)))| |auto].
        intros r s1 [G1 G2]. apply Hn2 in G2. subst r. cbn [fst snd]. eapply okr_lift; [reflexivity|]. rewrite <- G1 in H.
        eapply okr_bind_mono; [apply (fo_okr Hs Ht Hsane (fo_set (c := c) Ht Hsane (sl + i) x s1) (RC_set_raw Hc Hcomp Hd (i := sl + i) (d := to_d E x) H ltac:(rewrite lenN_app, lenN_cons; lia) (Hd x)))| |auto].
        intros u s2 H1. cbv beta in H1. rewrite <- Hpre, updN_app_r in H1.
        replace (pre ++ to_d E x :: junk2) with ((pre ++ [to_d E x]) ++ junk2) in H1 by (rewrite <- app_assoc; reflexivity).
        eapply okr_mono; [apply (IH (i + 1) sl s2 _ _ H1); [rewrite lenN_app; cbn; lia|unfold lenN in *; lia]|..].
        + intros m' s' [Q1 Q2]. split; [exact Q1|]. rewrite <- app_assoc in Q2. exact Q2.
        + auto.
    Qed.
    Lemma t_from_list xs u : lenN xs <= usize_max c -> reservable c E 0 (lenN xs) ->
      builds (fst (w_build c (w_extend c X next 1 (ret (lenN xs)) xs) u)) (fun v => holds c E v xs) (fun _ => True).
    Proof.
      intros Hle Hfit. assert (H : RC false (ev_new c) []) by (apply (RC_weaken Hc Hcomp Hd) with true; apply (RC_new Hc Hcomp Hd)).
      assert (G : okr (fun _ s' => RC false (fst s') (D xs)) (fun _ _ => True) (w_extend c X next 1 (ret (lenN xs)) xs (ev_new c, u))).
      { unfold w_extend. unfold bind at 1, user at 1, on_snd at 1, ret at 1. cbn [fst snd].
        unfold self_get at 1. eapply (okr_reads (a := 0)); [reflexivity|].
        assert (Hres := okr_fst (s := (ev_new c, u)) (RC_reserve Hc Hcomp Hd (k := lenN xs) H Hle Hfit)). rewrite (shp Ht Hsane).
        eapply okr_bind_mono; [exact Hres| |auto].
        intros a s2 [[H1 [Hm1 Hv1]] _]. clear Hres. cbn [lenN length N.of_nat] in Hv1.
        assert (Hlt : lenN xs < P * vlen (storage (fst s2))).
        { rewrite Hv1. pose proof (Ppos Hc Hcomp Hd) as HP. pose proof (N.mul_succ_div_gt (lenN xs) P ltac:(lia)). change (lenN (@nil N)) with 0. rewrite N.add_0_l. lia. }
        unfold self_get. eapply (okr_reads (a := lenN xs)). { rewrite Hm1. cbn [fst]. rewrite (rc_num H). apply (uadd_ok Hc Hcomp). exact Hle. }
        unfold bind at 1, self at 1, on_fst at 1, set_len.
        destruct (RC_set_len Hc Hcomp Hd H1 (n := lenN xs)) as [junk [Hj HLj]]; [lia|lia|]. rewrite firstn_nil in Hj.
        rewrite lenN_to_nat.
        eapply okr_bind_mono; [apply (t_listed (xs := xs) (i := 0) (sl := 0) (s := (_, _)) (pre := []) Hj); [reflexivity|rewrite HLj; cbn; lia]| |auto].
        intros rest s3 [-> K]. cbn [w_rest]. unfold bind, user, on_snd. rewrite Hn3. cbn. exact K. }
      unfold w_build. destruct (w_extend c X next 1 (ret (lenN xs)) xs (ev_new c, u)) as [[a|k| |] s']; cbn in *; auto.
      apply (holds_RC Hs). exact G.
    Qed.
  End Listed.
  Lemma t_from_slice xs u : lenN xs <= usize_max c -> reservable c E 0 (lenN xs) ->
    builds (fst (w_build c (w_extend c X (cloned_next X) 1 (ret (lenN xs)) xs) u)) (fun v => holds c E v xs) (fun _ => True).
  Proof.
    apply (t_from_list (next := cloned_next X)).
    - intros [|x l] w; [discriminate|]. cbn. unfold bind. pose proof (t_clone Ht Hsane (x := x) (u := w)) as Z. destruct (u_clone X x w) as [[z|k| |] u']; try discriminate. contradiction Z. reflexivity.
    - intros x l w r u' Hx. cbn in Hx. unfold bind in Hx. destruct (u_clone X x w) as [[z|k| |] u2] eqn:Hu; try discriminate. cbn in Hx. injection Hx as <- _.
      rewrite (proj2 (proj2 (proj2 Ht)) _ _ _ _ Hu). reflexivity.
    - reflexivity.
  Qed.
  Lemma t_from_vec xs u : lenN xs <= usize_max c -> reservable c E 0 (lenN xs) ->
    builds (fst (w_build c (w_extend c X (@vec_next U T) 1 (ret (lenN xs)) xs) u)) (fun v => holds c E v xs) (fun _ => True).
  Proof.
    apply (t_from_list (next := @vec_next U T)).
    - intros [|x l] w; discriminate.
    - intros x l w r u' Hx. cbn in Hx. injection Hx as <- _. reflexivity.
    - reflexivity.
  Qed.
End Truth3.
