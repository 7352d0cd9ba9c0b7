(** UserTruth2.v -- truthful user code that may panic: the elements after each call. *)
From Verif Require Export UserTruth ClaimFacts3.
From Coq Require Import ZifyBool ZifyNat ZifyN.
Open Scope N_scope.
Set Implicit Arguments.
Unset Strict Implicit.
Set Default Proof Using "Type*".

(** the items a log of (item, answer) kept *)
Definition kept {T} (log : list (T * bool)) : list T := map fst (filter snd log).
(** all of xs, or all but the last *)
Definition nearly {A} (ys xs : list A) : Prop := ys = xs \/ exists x, xs = ys ++ [x].

Section Quiet.
  Context {U T L : Type} {c : cfg} {X : usercode U T} (log : U -> list L).
  Local Notation MW := (M (ev * U)).
  Hypothesis Hq : quiet_user log X.
  Definition wquiet {A} (m : MW A) : Prop := forall s, log (snd (snd (m s))) = log (snd s).
  Lemma wq_bind A B (m : MW A) (f : A -> MW B) : wquiet m -> (forall a, wquiet (f a)) -> wquiet (bind m f).
  Proof. intros H1 H2 s. specialize (H1 s). unfold bind. destruct (m s) as [[a|k| |] s']; cbn in *; auto. rewrite H2. exact H1. Qed.
  Lemma wq_user A (m : M U A) : quiet log m -> wquiet (user m).
  Proof.
    intros H [v u]. specialize (H u). unfold user, on_snd. cbn [fst snd]. destruct (m u) as [[a|k| |] u']; cbn in *; rewrite H, app_nil_r; reflexivity.
  Qed.
  Lemma wq_self A (m : M ev A) : wquiet (self m).
  Proof. intros [v u]. unfold self, on_fst. cbn [fst snd]. destruct (m v); reflexivity. Qed.
  Lemma wq_get A (g : ev -> outcome A) : wquiet (self_get g).
  Proof. intros s. reflexivity. Qed.
  Lemma wq_lift A (o : outcome A) : wquiet (lift o).
  Proof. intros s. reflexivity. Qed.
  Lemma wq_elem i : wquiet (w_elem c X i).
  Proof.
    unfold w_elem, w_get. apply wq_bind; [|intros r; apply wq_lift]. apply wq_bind; [apply wq_get|]. intros [d|]; [|exact (wq_lift (Ret None))].
    apply wq_bind; [apply wq_user; apply Hq|]. intros x. exact (wq_lift (Ret (Some x))).
  Qed.
  Lemma wq_set i x : wquiet (w_set c X i x).
  Proof. unfold w_set. apply wq_bind; [apply wq_user; apply Hq|]. intros d. apply wq_self. Qed.
  Lemma wq_push x : wquiet (w_push c X x).
  Proof.
    unfold w_push. apply wq_bind; [apply wq_self|]. intros _. apply wq_bind; [apply wq_get|]. intros idx.
    apply wq_bind; [apply wq_lift|]. intros n1. apply wq_bind; [apply wq_self|]. intros _. apply wq_set.
  Qed.
End Quiet.

Section Truth2.
  Context {U T : Type} {c : cfg} {E : enumlike T} {X : usercode U T}.
  Local Notation B := (BITS E).
  Local Notation P := (EPB c E).
  Local Notation D := (map (to_d E)).
  Local Notation RC := (RC c E).
  Local Notation MW := (M (ev * U)).
  Hypothesis Hs : setting c E.
  Hypothesis Ht : truthful E X.
  Hypothesis Hsane : sane_user X.
  Local Notation Hc := (s_ok Hs).
  Local Notation Hcomp := (s_comp Hs).
  Local Notation Hai := (s_alloc Hs).
  Local Notation Hd := (s_d Hs).
  Local Notation Hfd := (s_fd Hs).

  Lemma fo_okr A (r : outcome A * (ev * U)) r0 F Q0 (F0 : panic -> ev -> Prop) : follows r r0 F -> okr Q0 F0 r0 ->
    okr (fun a s' => Q0 a (fst s')) (fun k s' => F0 k (fst s') \/ F k (fst s')) r.
  Proof.
    unfold follows, okr. destruct r as [[a|k| |] s']; cbn.
    - intros -> H. exact H.
    - intros [->|H] G; [left; exact G|right; exact H].
    - auto.
    - destruct r0 as [o v']. cbn. intros -> H. exact H.
  Qed.
  Lemma fo_logged L (log : U -> list L) A (m : MW A) s r0 F Q0 (F0 : panic -> ev -> Prop) : wquiet log m -> follows (m s) r0 F -> okr Q0 F0 r0 ->
    okr (fun a s' => Q0 a (fst s') /\ log (snd s') = log (snd s)) (fun k s' => (F0 k (fst s') \/ F k (fst s')) /\ log (snd s') = log (snd s)) (m s).
  Proof.
    intros H1 H2 H3. pose proof (fo_okr H2 H3) as G. specialize (H1 s). destruct (m s) as [[a|k| |] s']; cbn in *; auto.
  Qed.
  Lemma logged_user L (log : U -> list L) A (m : M U A) out s : sane m -> records log m out ->
    okr (fun a s' => fst s' = fst s /\ log (snd s') = log (snd s) ++ out a)
        (fun k s' => fst s' = fst s /\ log (snd s') = log (snd s)) (user m s).
  Proof.
    intros Hm Hr. destruct s as [v u]. specialize (Hm u). specialize (Hr u). unfold user, on_snd. cbn [fst snd].
    destruct (m u) as [[a|k| |] u']; cbn in *; auto. rewrite app_nil_r in Hr. auto.
  Qed.

  Lemma elem_okr v l i x : RC false v (D l) -> nthN l i = Some x ->
    okr (fun y v' => y = x /\ v' = v) never (reads (fun v => obind (get c E i v) (fun r => unwrap r)) v).
  Proof. intros H Hx. unfold reads. rewrite (RC_get_lawful Hc Hcomp Hd Hfd i H), Hx. cbn. auto. Qed.
  Lemma t_elem v l i x u : RC false v (D l) -> nthN l i = Some x ->
    okr (fun y s' => y = x /\ fst s' = v) (fun k s' => fst s' = v /\ users X k) (w_elem c X i (v, u)).
  Proof.
    intros H Hx. eapply okr_mono; [apply (fo_okr (fo_elem (c := c) Ht Hsane i (v, u)) (elem_okr H Hx))|..].
    - auto.
    - intros k s' [[]|G]; exact G.
  Qed.
  (** push *)
  Definition push_left (l : list N) (k : panic) (v' : ev) : Prop :=
    (cap_panic k /\ RC false v' l) \/ (users X k /\ exists j, RC false v' (l ++ [j])).
  Lemma grown v ds v1 : RC false v ds -> grow_if_needed c E v = (Ret tt, v1) -> num v1 + 1 <= usize_max c ->
    exists j, RC false (mkEv (storage v1) (num v1 + 1)) (ds ++ [j]).
  Proof.
    intros H H1 Hle. pose proof (OpFacts.RC_grow Hc Hcomp Hd H) as G. rewrite H1 in G. cbn in G. destruct G as [G1 [G2 G3]].
    pose proof (rc_num G1) as Hn. destruct (RC_set_len Hc Hcomp Hd G1 (n := num v1 + 1)) as [junk [Hj HLj]]; [lia|exact Hle|].
    rewrite firstn_lenN in Hj by lia. destruct (lenN_cons_inv (l := junk) (n := 0%nat)) as [j [junk2 [-> Hj2]]].
    - rewrite HLj. rewrite Hn. lia.
    - rewrite (lenN_nil_inv Hj2) in Hj. eauto.
  Qed.
  Lemma t_push v ds x u : RC false v ds ->
    okr (fun _ s' => RC false (fst s') (ds ++ [to_d E x])) (fun k s' => push_left ds k (fst s')) (w_push c X x (v, u)).
  Proof.
    intros H. eapply okr_mono; [apply (fo_okr (fo_push (c := c) Ht Hsane x (v, u)) (RC_push Hc Hcomp Hd x H))|..].
    - auto.
    - intros k s' [[[-> ->]|[-> [_ G]]]|[G1 [v1 [G2 [G3 ->]]]]].
      + left. split; [left; reflexivity|exact H].
      + left. split; [right; reflexivity|exact G].
      + right. split; [exact G1|]. exact (grown H G2 G3).
  Qed.
  Lemma t_set v ds i x u : RC false v ds -> i < lenN ds ->
    okr (fun _ s' => RC false (fst s') (updN ds i (to_d E x))) (fun k s' => fst s' = v /\ users X k) (w_set c X i x (v, u)).
  Proof.
    intros H Hi. eapply okr_mono; [apply (fo_okr (fo_set (c := c) Ht Hsane i x (v, u)) (RC_set_raw Hc Hcomp Hd (d := to_d E x) H Hi (Hd x)))|..].
    - auto.
    - intros k s' [[]|G]; exact G.
  Qed.

  Section Logged.
    Context {L : Type} (log : U -> list L).
    Hypothesis Hq : quiet_user log X.
    Lemma l_elem s l i x : RC false (fst s) (D l) -> nthN l i = Some x ->
      okr (fun y s' => y = x /\ fst s' = fst s /\ log (snd s') = log (snd s))
          (fun k s' => (fst s' = fst s /\ users X k) /\ log (snd s') = log (snd s)) (w_elem c X i s).
    Proof.
      intros H Hx. eapply okr_mono; [apply (fo_logged (wq_elem (c := c) (log := log) Hq i) (fo_elem (c := c) Ht Hsane i s) (elem_okr H Hx))|..].
      - intros y s' [[G1 G2] G3]. auto.
      - intros k s' [[[]|G] G3]; auto.
    Qed.
    Lemma l_set s ds i x : RC false (fst s) ds -> i < lenN ds ->
      okr (fun _ s' => RC false (fst s') (updN ds i (to_d E x)) /\ log (snd s') = log (snd s))
          (fun k s' => (fst s' = fst s /\ users X k) /\ log (snd s') = log (snd s)) (w_set c X i x s).
    Proof.
      intros H Hi. eapply okr_mono; [apply (fo_logged (wq_set (c := c) (log := log) Hq i x) (fo_set (c := c) Ht Hsane i x s) (RC_set_raw Hc Hcomp Hd (d := to_d E x) H Hi (Hd x)))|..].
      - auto.
      - intros k s' [[[]|G] G3]; auto.
    Qed.
    Lemma l_push s ds x : RC false (fst s) ds ->
      okr (fun _ s' => RC false (fst s') (ds ++ [to_d E x]) /\ log (snd s') = log (snd s))
          (fun k s' => push_left ds k (fst s') /\ log (snd s') = log (snd s)) (w_push c X x s).
    Proof.
      intros H. destruct s as [v u]. cbn [fst] in H. pose proof (t_push x u H) as G. pose proof (wq_push (c := c) (log := log) Hq x (v, u)) as G2.
      destruct (w_push c X x (v, u)) as [[a|k| |] s']; cbn in *; auto.
    Qed.
  End Logged.

  (** *** retain *)
  Section Retain.
    Context (log : U -> list (T * bool)) (f : T -> M U bool).
    Hypothesis Hq : quiet_user log X.
    Hypothesis Hf : forall x, sane (f x).
    Hypothesis Hr : forall x, records log (f x) (fun b => [(x, b)]).
    Lemma kept_cons (x : T) (b : bool) r : kept ((x, b) :: r) = (if b then [x] else []) ++ kept r.
    Proof. unfold kept. cbn. destruct b; reflexivity. Qed.
    Lemma t_retain_loop l : forall todo done K s,
      l = done ++ todo -> (length K <= length done)%nat -> RC false (fst s) (D (K ++ skipn (length K) l)) ->
      okr (fun r s' => exists bs, length bs = length todo /\ log (snd s') = log (snd s) ++ combine todo bs /\
             r = lenN (K ++ kept (combine todo bs)) /\
             RC false (fst s') (D ((K ++ kept (combine todo bs)) ++ skipn (length (K ++ kept (combine todo bs))) l)))
          (fun k s' => exists bs K', (length bs <= length todo)%nat /\ log (snd s') = log (snd s) ++ combine todo bs /\
             nearly K' (kept (combine todo bs)) /\ (K' <> kept (combine todo bs) -> users X k) /\
             RC false (fst s') (D ((K ++ K') ++ skipn (length (K ++ K')) l)))
          (w_retain_loop c X f (length todo) (lenN done) (lenN K) s).
    Proof.
      induction todo as [|x todo IH]; intros done K s Hl HK H; cbn [length w_retain_loop].
      - cbn. exists []. cbn. rewrite !app_nil_r. auto.
      - assert (Hx : nthN (K ++ skipn (length K) l) (lenN done) = Some x).
        { rewrite nthN_app_r by (unfold lenN; lia). rewrite nthN_skipn.
          replace (N.of_nat (length K) + (lenN done - lenN K)) with (lenN done) by (unfold lenN; lia).
          rewrite Hl. apply nthN_middle. }
        assert (Hstop : forall k s', fst s' = fst s -> log (snd s') = log (snd s) ->
          exists bs K', (length bs <= length (x :: todo))%nat /\ log (snd s') = log (snd s) ++ combine (x :: todo) bs /\
             nearly K' (kept (combine (x :: todo) bs)) /\ (K' <> kept (combine (x :: todo) bs) -> users X k) /\
             RC false (fst s') (D ((K ++ K') ++ skipn (length (K ++ K')) l))).
        { intros k s' G1 G2. exists [], []. cbn. rewrite !app_nil_r, G1, G2. split; [lia|]. split; [reflexivity|]. split; [left; reflexivity|].
          split; [intros Z; contradiction Z; reflexivity|exact H]. }
        eapply okr_bind_mono; [apply (l_elem (s := s) Hq H Hx)| |intros k s' [[G1 _] G2]; apply Hstop; assumption].
        intros y s1 [-> [G1 G2]].
        eapply okr_bind_mono; [apply (logged_user s1 (@Hf x) (@Hr x))| |intros k s' [G3 G4]; apply Hstop; congruence].
        intros b s2 [G3 G4]. rewrite G1 in G3. rewrite G2 in G4. rewrite <- G3 in H.
        assert (Hlen : lenN K < lenN (D (K ++ skipn (length K) l))).
        { rewrite lenN_map, lenN_app, lenN_skipn.
          assert (lenN l = lenN done + lenN (x :: todo)) by (rewrite Hl; apply lenN_app).
          rewrite lenN_cons in *. unfold lenN in *. lia. }
        destruct b.
        + eapply okr_bind_mono; [apply (l_set (s := s2) Hq x H Hlen)|..].
          * intros u s3 [H1 G5]. cbv beta in H1.
            assert (Hsk : exists y, skipn (length K) l = y :: skipn (length (K ++ [x])) l).
            { destruct (@nthN_lt_Some _ l (lenN K)) as [y Hy].
              - rewrite Hl, lenN_app, lenN_cons. unfold lenN. lia.
              - exists y. pose proof (nthN_skip Hy) as G. rewrite lenN_to_nat in G. rewrite G.
                f_equal. f_equal. rewrite app_length. cbn. unfold lenN. lia. }
            destruct Hsk as [y Hsk]. rewrite Hsk, <- map_updN, updN_app_r in H1.
            replace (K ++ x :: skipn (length (K ++ [x])) l) with ((K ++ [x]) ++ skipn (length (K ++ [x])) l) in H1
              by (rewrite <- app_assoc; reflexivity).
            replace (lenN done + 1) with (lenN (done ++ [x])) by (rewrite lenN_app; reflexivity).
            replace (lenN K + 1) with (lenN (K ++ [x])) by (rewrite lenN_app; reflexivity).
            rewrite G4 in G5.
            eapply okr_mono; [apply (IH (done ++ [x]) (K ++ [x]) s3)|..].
            -- rewrite Hl, <- app_assoc. reflexivity.
            -- rewrite !app_length. cbn. lia.
            -- exact H1.
            -- intros r s' [bs [Q1 [Q2 [Q3 Q4]]]]. exists (true :: bs). cbn [length combine]. rewrite kept_cons. cbn [app].
               replace ((K ++ [x]) ++ kept (combine todo bs)) with (K ++ x :: kept (combine todo bs)) in Q3, Q4 by (rewrite <- app_assoc; reflexivity).
               split; [lia|]. split; [rewrite Q2, G5, <- app_assoc; reflexivity|]. auto.
            -- intros k s' [bs [K' [Q1 [Q2 [Q3 [Q5 Q4]]]]]]. exists (true :: bs), (x :: K'). cbn [length combine]. rewrite kept_cons. cbn [app].
               replace ((K ++ [x]) ++ K') with (K ++ x :: K') in Q4 by (rewrite <- app_assoc; reflexivity).
               split; [lia|]. split; [rewrite Q2, G5, <- app_assoc; reflexivity|].
               split; [destruct Q3 as [->|[z ->]]; [left; reflexivity|right; exists z; reflexivity]|].
               split; [intros Z; apply Q5; congruence|exact Q4].
          * intros k s' [[G5 G6] G7]. exists [true], []. cbn [length combine]. rewrite kept_cons, combine_nil. cbn.
            split; [lia|]. split; [rewrite G7; exact G4|]. split; [right; exists x; reflexivity|]. split; [intros _; exact G6|].
            rewrite app_nil_r, G5. exact H.
        + replace (lenN done + 1) with (lenN (done ++ [x])) by (rewrite lenN_app; reflexivity).
          eapply okr_mono; [apply (IH (done ++ [x]) K s2)|..].
          * rewrite Hl, <- app_assoc. reflexivity.
          * rewrite app_length. lia.
          * exact H.
          * intros r s' [bs [Q1 [Q2 Q3]]]. exists (false :: bs). cbn [length combine]. rewrite kept_cons. cbn [app].
            split; [lia|]. split; [rewrite Q2, G4, <- app_assoc; reflexivity|]. exact Q3.
          * intros k s' [bs [K' [Q1 [Q2 Q3]]]]. exists (false :: bs), K'. cbn [length combine]. rewrite kept_cons. cbn [app].
            split; [lia|]. split; [rewrite Q2, G4, <- app_assoc; reflexivity|]. exact Q3.
    Qed.
    Lemma t_retain v l u : holds c E v l ->
      result (w_retain c X f (v, u))
        (fun _ s' => exists bs, length bs = length l /\ log (snd s') = log u ++ combine l bs /\ holds c E (fst s') (kept (combine l bs)))
        (fun k s' => exists bs K, (length bs <= length l)%nat /\ log (snd s') = log u ++ combine l bs /\
           nearly K (kept (combine l bs)) /\ (K <> kept (combine l bs) -> users X k) /\
           holds c E (fst s') (K ++ skipn (length K) l)).
    Proof.
      intros H. apply (holds_RC Hs) in H. unfold w_retain, self_get. eapply okr_reads; [reflexivity|]. cbn [fst]. unfold len.
      rewrite (rc_num H), lenN_map, lenN_to_nat.
      eapply okr_bind_mono.
      - apply (t_retain_loop (l := l) (todo := l) (done := []) (K := []) (s := (v, u))); [reflexivity|cbn; lia|exact H].
      - intros r s1 [bs [G1 [G2 [G3 G4]]]]. cbn [app] in G3, G4. cbn. exists bs. split; [exact G1|]. split; [exact G2|]. apply (holds_RC Hs). rewrite G3.
        pose proof (RC_set_len_le Hc Hcomp Hd (n := lenN (kept (combine l bs))) G4) as G.
        rewrite lenN_map, lenN_app in G. specialize (G ltac:(lia)).
        rewrite map_app in G. rewrite lenN_to_nat, firstn_app in G.
        rewrite map_length, Nat.sub_diag in G. cbn [firstn] in G. rewrite app_nil_r in G.
        rewrite <- (map_length (to_d E) (kept (combine l bs))), firstn_all in G at 1. exact G.
      - intros k s1 [bs [K' [G1 [G2 [G3 [G4 G5]]]]]]. cbn [app] in G5. exists bs, K'. cbn in G2. repeat (split; [assumption|]). apply (holds_RC Hs). exact G5.
    Qed.
  End Retain.

  (** *** iter_mut().for_each *)
  Section ForEach.
    Context (log : U -> list (T * T)) (f : T -> M U T).
    Hypothesis Hq : quiet_user log X.
    Hypothesis Hf : forall x, sane (f x).
    Hypothesis Hr : forall x, records log (f x) (fun y => [(x, y)]).
    Lemma t_for_each_loop : forall todo done s, RC false (fst s) (D (done ++ todo)) ->
      okr (fun _ s' => exists ys, length ys = length todo /\ log (snd s') = log (snd s) ++ combine todo ys /\ RC false (fst s') (D (done ++ ys)))
          (fun k s' => exists ys K, (length ys <= length todo)%nat /\ log (snd s') = log (snd s) ++ combine todo ys /\
             nearly K ys /\ (K <> ys -> users X k) /\ RC false (fst s') (D (done ++ K ++ skipn (length K) todo)))
          (w_for_each_loop c X f (length todo) (lenN done) s).
    Proof.
      induction todo as [|x todo IH]; intros done s H; cbn [length w_for_each_loop].
      - cbn. exists []. cbn. rewrite !app_nil_r in *. auto.
      - assert (Hx : nthN (done ++ x :: todo) (lenN done) = Some x) by apply nthN_middle.
        assert (Hstop : forall k s', fst s' = fst s -> log (snd s') = log (snd s) ->
          exists ys K, (length ys <= length (x :: todo))%nat /\ log (snd s') = log (snd s) ++ combine (x :: todo) ys /\
             nearly K ys /\ (K <> ys -> users X k) /\ RC false (fst s') (D (done ++ K ++ skipn (length K) (x :: todo)))).
        { intros k s' G1 G2. exists [], []. cbn. rewrite app_nil_r, G1, G2. split; [lia|]. split; [reflexivity|]. split; [left; reflexivity|].
          split; [intros Z; contradiction Z; reflexivity|exact H]. }
        eapply okr_bind_mono; [apply (l_elem (s := s) Hq H Hx)| |intros k s' [[G1 _] G2]; apply Hstop; assumption].
        intros x' s1 [-> [G1 G2]].
        eapply okr_bind_mono; [apply (logged_user s1 (@Hf x) (@Hr x))| |intros k s' [G3 G4]; apply Hstop; congruence].
        intros y s2 [G3 G4]. rewrite G1 in G3. rewrite G2 in G4. rewrite <- G3 in H.
        eapply okr_bind_mono; [apply (l_set (s := s2) (i := lenN done) Hq y H); rewrite lenN_map, lenN_app, lenN_cons; lia|..].
        * intros u s3 [H1 G5]. rewrite <- map_updN, updN_app_r in H1.
          replace (done ++ y :: todo) with ((done ++ [y]) ++ todo) in H1 by (rewrite <- app_assoc; reflexivity).
          replace (lenN done + 1) with (lenN (done ++ [y])) by (rewrite lenN_app; reflexivity). rewrite G4 in G5.
          eapply okr_mono; [apply (IH _ _ H1)|..].
          -- intros a s' [ys [Q1 [Q2 Q3]]]. exists (y :: ys). cbn [length combine]. rewrite <- app_assoc in Q3.
             split; [lia|]. split; [rewrite Q2, G5, <- app_assoc; reflexivity|exact Q3].
          -- intros k s' [ys [K [Q1 [Q2 [Q3 [Q4 Q5]]]]]]. exists (y :: ys), (y :: K). cbn [length combine skipn]. rewrite <- app_assoc in Q5.
             split; [lia|]. split; [rewrite Q2, G5, <- app_assoc; reflexivity|].
             split; [destruct Q3 as [->|[z ->]]; [left; reflexivity|right; exists z; reflexivity]|].
             split; [intros Z; apply Q4; congruence|exact Q5].
        * intros k s' [[G5 G6] G7]. exists [y], []. cbn [length combine skipn app]. rewrite combine_nil.
          split; [lia|]. split; [rewrite G7; exact G4|]. split; [right; exists y; reflexivity|]. split; [intros _; exact G6|].
          rewrite G5. exact H.
    Qed.
    Lemma t_for_each v l u : holds c E v l ->
      result (w_for_each c X f (v, u))
        (fun _ s' => exists ys, length ys = length l /\ log (snd s') = log u ++ combine l ys /\ holds c E (fst s') ys)
        (fun k s' => exists ys K, (length ys <= length l)%nat /\ log (snd s') = log u ++ combine l ys /\
           nearly K ys /\ (K <> ys -> users X k) /\ holds c E (fst s') (K ++ skipn (length K) l)).
    Proof.
      intros H. apply (holds_RC Hs) in H. unfold w_for_each, self_get. eapply okr_reads; [reflexivity|]. cbn [fst]. unfold len.
      rewrite (rc_num H), lenN_map, lenN_to_nat.
      eapply okr_mono; [apply (t_for_each_loop (todo := l) (done := []) (s := (v, u)) H)|..].
      - intros a s' [ys [G1 [G2 G3]]]. exists ys. split; [exact G1|]. split; [exact G2|]. apply (holds_RC Hs). exact G3.
      - intros k s' [ys [K [G1 [G2 [G3 [G4 G5]]]]]]. exists ys, K. cbn in G2. repeat (split; [assumption|]). apply (holds_RC Hs). exact G5.
    Qed.
  End ForEach.
End Truth2.
