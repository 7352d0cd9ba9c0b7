(** UnsafeFacts.v -- lemmas for C53: clients that use the unsafe accessors. *)
From Verif Require Export StorageFacts ClientFacts SurviveFacts Unsafe.
From Coq Require Import ZifyBool ZifyNat ZifyN.
Open Scope N_scope.
Set Implicit Arguments.
Unset Strict Implicit.

(** ** Frames *)
Lemma changes_regs T (o : op T) r : In r (changes o) -> In r (regs o).
Proof. destruct o; cbn; tauto. Qed.
Lemma step_keep T (c : cfg) (E : enumlike T) p o r : ~ In r (changes o) -> (r < length p)%nat ->
  nth_error (snd (m_step c E p o)) r = nth_error p r.
Proof.
  intros Hr Hl.
  assert (Hu : forall q r0 (v : ev), r0 <> r -> nth_error (upd q r0 v) r = nth_error q r).
  { intros q r0 v Hne. rewrite nth_error_upd. destruct (Nat.eqb_spec r0 r); [contradiction|reflexivity]. }
  assert (Hon : forall A r0 (m : M ev A) k, r0 <> r -> nth_error (snd (m_on (T := T) p r0 m k)) r = nth_error p r).
  { intros A r0 m k Hne. unfold m_on. destruct (nth_error p r0) as [v|]; [|reflexivity]. destruct (m v) as [a v']. apply Hu. exact Hne. }
  assert (Hread : forall A r0 (f : ev -> outcome A) k, nth_error (snd (m_read (T := T) p r0 f k)) r = nth_error p r).
  { intros A r0 f k. unfold m_read. destruct (nth_error p r0); reflexivity. }
  assert (Hnew : forall q o0, (r < length q)%nat -> nth_error (snd (m_new (T := T) q o0)) r = nth_error q r).
  { intros q o0 Hq. unfold m_new. destruct o0; try reflexivity. apply nth_error_app1. exact Hq. }
  destruct o; cbn [m_step changes] in *; try (apply Hnew; exact Hl); try (apply Hon; intros ->; apply Hr; left; reflexivity); try apply Hread.
  - destruct (nth_error p r0); [apply Hnew; exact Hl|reflexivity].
  - destruct (nth_error p r0); [|reflexivity]. destruct (nth_error p r2); [|reflexivity]. destruct (Nat.eqb r0 r2); [reflexivity|].
    destruct (append c E (e, e0)) as [a s]. cbn [snd]. rewrite !Hu; [reflexivity|..]; intros ->; apply Hr; cbn; auto.
  - destruct (nth_error p r0); [|reflexivity]. assert (Hne : r0 <> r) by (intros ->; apply Hr; left; reflexivity).
    destruct (split_off c E at_ e) as [[w|k| |] v']; cbn [snd]; try (apply Hu; exact Hne).
    rewrite nth_error_app1; [apply Hu; exact Hne|]. rewrite upd_length. exact Hl.
  - destruct (nth_error p r0); [|reflexivity]. destruct (nth_error p r2); reflexivity.
Qed.
(** a call sees only the vectors it mentions *)
Lemma step_local T (c : cfg) (E : enumlike T) p q o : length p = length q ->
  (forall r, In r (regs o) -> nth_error p r = nth_error q r) ->
  fst (m_step c E p o) = fst (m_step c E q o) /\ length (snd (m_step c E p o)) = length (snd (m_step c E q o)) /\
  forall r, In r (regs o) \/ (length p <= r)%nat -> nth_error (snd (m_step c E p o)) r = nth_error (snd (m_step c E q o)) r.
Proof.
  intros HL HR.
  assert (Hsame : forall r, In r (regs o) \/ (length p <= r)%nat -> nth_error p r = nth_error q r).
  { intros r [H|H]; [apply HR; exact H|]. rewrite !(proj2 (nth_error_None _ _)) by lia. reflexivity. }
  assert (Hupd : forall r0 (v : ev) p q, length p = length q -> (forall r, In r (regs o) \/ (length p <= r)%nat -> nth_error p r = nth_error q r) ->
    forall r, In r (regs o) \/ (length p <= r)%nat -> nth_error (upd p r0 v) r = nth_error (upd q r0 v) r).
  { clear. intros r0 v p q HL H r Hr. rewrite !nth_error_upd. rewrite (H r Hr), HL. reflexivity. }
  assert (Hon : forall A r0 (m : M ev A) k, In r0 (regs o) ->
    fst (m_on (T := T) p r0 m k) = fst (m_on (T := T) q r0 m k) /\ length (snd (m_on (T := T) p r0 m k)) = length (snd (m_on (T := T) q r0 m k)) /\
    forall r, In r (regs o) \/ (length p <= r)%nat -> nth_error (snd (m_on (T := T) p r0 m k)) r = nth_error (snd (m_on (T := T) q r0 m k)) r).
  { intros A r0 m k H0. unfold m_on. rewrite (HR r0 H0). destruct (nth_error q r0) as [v|]; [|auto].
    destruct (m v) as [a v']. cbn [fst snd]. rewrite !upd_length. split; [reflexivity|]. split; [exact HL|]. apply Hupd; [exact HL|exact Hsame]. }
  assert (Hread : forall A r0 (f : ev -> outcome A) k, In r0 (regs o) ->
    fst (m_read (T := T) p r0 f k) = fst (m_read (T := T) q r0 f k) /\ length (snd (m_read (T := T) p r0 f k)) = length (snd (m_read (T := T) q r0 f k)) /\
    forall r, In r (regs o) \/ (length p <= r)%nat -> nth_error (snd (m_read (T := T) p r0 f k)) r = nth_error (snd (m_read (T := T) q r0 f k)) r).
  { intros A r0 f k H0. unfold m_read. rewrite (HR r0 H0). destruct (nth_error q r0) as [v|]; auto. }
  assert (Happ : forall p q (w : ev), length p = length q -> (forall r, In r (regs o) \/ (length p <= r)%nat -> nth_error p r = nth_error q r) ->
    forall r, In r (regs o) \/ (length p <= r)%nat -> nth_error (p ++ [w]) r = nth_error (q ++ [w]) r).
  { clear. intros p q w HL H r Hr. destruct (Nat.lt_ge_cases r (length p)) as [G|G].
    - rewrite !nth_error_app1 by lia. apply H. exact Hr.
    - rewrite !nth_error_app2 by lia. rewrite HL. reflexivity. }
  assert (Hnew : forall o0,
    fst (m_new (T := T) p o0) = fst (m_new (T := T) q o0) /\ length (snd (m_new (T := T) p o0)) = length (snd (m_new (T := T) q o0)) /\
    forall r, In r (regs o) \/ (length p <= r)%nat -> nth_error (snd (m_new (T := T) p o0)) r = nth_error (snd (m_new (T := T) q o0)) r).
  { intros o0. unfold m_new. destruct o0; auto. cbn [fst snd]. rewrite !app_length. split; [reflexivity|]. split; [lia|]. apply Happ; assumption. }
  destruct o; cbn [m_step]; try apply Hnew; try (apply Hon; left; reflexivity); try (apply Hread; left; reflexivity).
  - rewrite (HR r (or_introl eq_refl)). destruct (nth_error q r); [apply Hnew|auto].
  - rewrite (HR r (or_introl eq_refl)), (HR r2 (or_intror (or_introl eq_refl))).
    destruct (nth_error q r); [|auto]. destruct (nth_error q r2); [|auto]. destruct (Nat.eqb r r2); [auto|].
    destruct (append c E (e, e0)) as [a s]. cbn [fst snd]. rewrite !upd_length. split; [reflexivity|]. split; [exact HL|].
    intros r1 H1. apply Hupd; [rewrite !upd_length; exact HL| |rewrite upd_length; exact H1]. intros r3 H3. rewrite upd_length in H3. apply Hupd; assumption.
  - rewrite (HR r (or_introl eq_refl)). destruct (nth_error q r); [|auto].
    destruct (split_off c E at_ e) as [[w|k| |] v']; cbn [fst snd]; rewrite ?app_length, ?upd_length.
    + split; [reflexivity|]. split; [lia|]. intros r1 H1. apply Happ; [rewrite !upd_length; exact HL| |rewrite upd_length; exact H1].
      intros r3 H3. rewrite upd_length in H3. apply Hupd; assumption.
    + split; [reflexivity|]. split; [lia|]. apply Hupd; [exact HL|exact Hsame].
    + split; [reflexivity|]. split; [lia|]. apply Hupd; [exact HL|exact Hsame].
    + split; [reflexivity|]. split; [lia|]. apply Hupd; [exact HL|exact Hsame].
  - rewrite (HR r (or_introl eq_refl)), (HR r2 (or_intror (or_introl eq_refl))).
    destruct (nth_error q r); [|auto]. destruct (nth_error q r2); auto.
Qed.

(** the lists a call on lists leaves alone *)
Lemma vstep_keep T (E : enumlike T) sp o r : ~ In r (changes o) -> (r < length sp)%nat ->
  nth_error (snd (v_step E sp o)) r = nth_error sp r.
Proof.
  intros Hr Hl.
  assert (Hu : forall q r0 (v : list T), r0 <> r -> nth_error (upd q r0 v) r = nth_error q r).
  { intros q r0 v Hne. rewrite nth_error_upd. destruct (Nat.eqb_spec r0 r); [contradiction|reflexivity]. }
  assert (Hon : forall r0 f, r0 <> r -> nth_error (snd (s_on sp r0 f)) r = nth_error sp r).
  { intros r0 f Hne. unfold s_on. destruct (nth_error sp r0) as [v|]; [|reflexivity]. destruct (f v) as [a v']. apply Hu. exact Hne. }
  assert (Hread : forall r0 (f : list T -> res T), nth_error (snd (s_on sp r0 (fun l => (f l, l)))) r = nth_error sp r).
  { intros r0 f. unfold s_on. destruct (nth_error sp r0) as [l|] eqn:Hl0; [|reflexivity]. cbn [snd]. rewrite nth_error_upd.
    destruct (Nat.eqb_spec r0 r) as [->|]; [|reflexivity]. rewrite (proj2 (Nat.ltb_lt _ _) Hl). congruence. }
  assert (Hnew : forall l, nth_error (sp ++ [l]) r = nth_error sp r) by (intros l; apply nth_error_app1; exact Hl).
  destruct o; cbn [v_step s_step changes] in *; try (apply Hnew); try (apply Hon; intros ->; apply Hr; left; reflexivity); try apply Hread.
  - destruct (ends_in_panic it); [reflexivity|]. apply Hnew.
  - destruct (nth_error sp r0); [apply Hnew|reflexivity].
  - destruct (nth_error sp r0); [|reflexivity]. destruct (nth_error sp r2); [|reflexivity]. destruct (Nat.eqb r0 r2); [reflexivity|].
    cbn [snd]. rewrite !Hu; [reflexivity|..]; intros ->; apply Hr; cbn; auto.
  - destruct (nth_error sp r0); [|reflexivity]. assert (Hne : r0 <> r) by (intros ->; apply Hr; left; reflexivity).
    destruct (at_ <=? lenN l); [|reflexivity]. cbn [snd]. rewrite nth_error_app1; [apply Hu; exact Hne|]. rewrite upd_length. exact Hl.
  - destruct (nth_error sp r0); [|reflexivity]. destruct (nth_error sp r2); reflexivity.
Qed.

(** ** Slots *)
Section Slots.
  Context {T : Type} {c : cfg} {E : enumlike T}.
  Hypothesis Hs : setting c E.
  Hypothesis Hroomy : roomy c.
  Local Notation Hc := (s_ok Hs).
  Local Notation Hcomp := (s_comp Hs).
  Local Notation Hai := (s_alloc Hs).
  Local Notation Hd := (s_d Hs).
  Local Notation P := (EPB c E).

  Definition tracks (v : ev) (u : raw) : Prop :=
    valid c E v /\ len v = rlen u /\ rlen u <= lenN (slots u) /\ lenN (slots u) <= P * vlen (storage v) /\
    forall i d, l_get (slots u) i = Some (Some d) -> get_raw_unchecked c E i v = Ret d.

  Lemma value_of_ok d x : value_of E d = Some x -> to_d E x = d.
  Proof. unfold value_of. destruct (from_d E d) as [y|]; [|discriminate]. destruct (N.eqb_spec (to_d E y) d); congruence. Qed.
  Lemma value_of_to x : value_of E (to_d E x) = Some x.
  Proof. unfold value_of. rewrite (s_fd Hs), N.eqb_refl. reflexivity. Qed.
  Lemma values_of_ok l : forall xs, values_of E l = Some xs -> l = map (fun x => Some (to_d E x)) xs.
  Proof.
    induction l as [|[d|] l IH]; cbn; intros xs H; [|destruct (value_of E d) as [x|] eqn:Hx; [|discriminate]; destruct (values_of E l) as [ys|]; [|discriminate]|discriminate].
    - injection H as <-. reflexivity.
    - injection H as <-. cbn. rewrite (value_of_ok Hx). f_equal. apply IH. reflexivity.
  Qed.
  Lemma values_of_map xs : values_of E (map (fun x => Some (to_d E x)) xs) = Some xs.
  Proof. induction xs as [|x xs IH]; cbn; [reflexivity|]. rewrite value_of_to, IH. reflexivity. Qed.

  Lemma tracks_holds v u l : tracks v u -> elems E u = Some l -> holds c E v l.
  Proof.
    intros [Hv [Hl [Hle [Hcov Hk]]]] He. unfold elems in He. apply values_of_ok in He.
    assert (Hn : lenN l = rlen u).
    { pose proof (f_equal (@length _) He) as G. rewrite firstn_length, map_length in G. unfold lenN in *. lia. }
    split; [exact Hv|]. intros i. unfold get_raw. rewrite Hl. destruct (N.leb_spec (rlen u) i) as [Hi|Hi].
    - unfold l_get. rewrite (proj2 (nth_error_None _ _)); [reflexivity|]. unfold lenN in Hn. lia.
    - unfold l_get. destruct (nth_error l (N.to_nat i)) as [x|] eqn:Hx; [|apply nth_error_None in Hx; unfold lenN in Hn; lia].
      rewrite (Hk i (to_d E x)); [reflexivity|]. unfold l_get.
      assert (G : nth_error (firstn (N.to_nat (rlen u)) (slots u)) (N.to_nat i) = Some (Some (to_d E x))).
      { rewrite He. exact (map_nth_error _ _ _ Hx). }
      rewrite <- G. symmetry. clear -Hi. rewrite <- (firstn_skipn (N.to_nat (rlen u)) (slots u)) at 2.
      destruct (Nat.lt_ge_cases (N.to_nat i) (length (firstn (N.to_nat (rlen u)) (slots u)))) as [G|G].
      + rewrite nth_error_app1 by exact G. reflexivity.
      + rewrite firstn_length in G. rewrite (proj2 (nth_error_None _ _)) by (rewrite firstn_length; lia).
        symmetry. apply nth_error_None. rewrite firstn_skipn. lia.
  Qed.
  Lemma holds_tracks v l o : holds c E v l ->
    (forall r k, o = OReserve r k -> lenN l + k <= P * vlen (storage v)) -> tracks v (fresh E o l).
  Proof.
    intros H Hk. pose proof (holds_len Hs H) as Hl. pose proof (proj1 H) as Hv. split; [exact Hv|]. split; [exact Hl|].
    unfold fresh. cbn [rlen slots].
    assert (Hcov : lenN l <= P * vlen (storage v)) by (rewrite <- Hl; exact (proj1 (proj2 Hv))).
    split; [unfold lenN; rewrite app_length, map_length; lia|]. split.
    - unfold lenN in *. rewrite app_length, map_length. destruct o; cbn [length]; try lia. rewrite repeat_length. specialize (Hk _ _ eq_refl). lia.
    - intros i d Hi. unfold l_get in Hi. destruct (Nat.lt_ge_cases (N.to_nat i) (length l)) as [G|G].
      + rewrite nth_error_app1 in Hi by (rewrite map_length; exact G). rewrite nth_error_map in Hi.
        destruct (nth_error l (N.to_nat i)) as [x|] eqn:Hx; [|discriminate]. injection Hi as <-.
        pose proof (proj2 H i) as R. unfold get_raw in R. rewrite Hl in R. rewrite (proj2 (N.leb_gt _ _)) in R by (unfold lenN; lia).
        unfold l_get in R. rewrite Hx in R. pose proof (WF_valid (c := c) (E := E) v) as [_ W]. apply W in Hv.
        rewrite (get_raw_unchecked_spec Hc Hcomp) in R |- * by (unfold lenN in *; lia). cbn in R. congruence.
      + rewrite nth_error_app2 in Hi by (rewrite map_length; exact G). exfalso.
        destruct o; try (destruct (N.to_nat i - _)%nat; discriminate).
        apply nth_error_In in Hi. apply repeat_spec in Hi. discriminate.
  Qed.

  Lemma tracks_small v u : tracks v u -> lenN (slots u) <= usize_max c.
  Proof.
    intros [Hv [_ [_ [H _]]]]. destruct Hv as [_ [_ [H1 [H2 _]]]].
    pose proof (EPB_le_W Hc Hcomp). pose proof (usize_pow Hc Hcomp). unfold roomy in Hroomy.
    assert (P * vlen (storage v) <= W c * alloc_max c) by (apply N.mul_le_mono; lia). lia.
  Qed.
  Lemma l_set_get A (l : list A) i x j : l_get (l_set l i x) j = if (j =? i) && (i <? lenN l) then Some x else l_get l j.
  Proof.
    unfold l_get, l_set. rewrite <- upd_set, nth_error_upd. unfold lenN.
    destruct (Nat.eqb_spec (N.to_nat i) (N.to_nat j)); destruct (N.eqb_spec j i); try lia; cbn [andb]; [|reflexivity].
    replace j with i by lia. destruct (Nat.ltb_spec (N.to_nat i) (length l)); destruct (N.ltb_spec i (N.of_nat (length l))); try lia; [reflexivity|].
    symmetry. apply nth_error_None. lia.
  Qed.
  Lemma l_set_len A (l : list A) i x : lenN (l_set l i x) = lenN l.
  Proof. unfold lenN, l_set. rewrite <- upd_set, upd_length. reflexivity. Qed.
  Lemma poke_len w b l : forall j, length (poke c E w b j l) = length l.
  Proof. induction l as [|s l IH]; intros j; cbn; [reflexivity|]. f_equal. apply IH. Qed.
  Lemma poke_nth w b l : forall j n, nth_error (poke c E w b j l) n =
    match nth_error l n with
    | Some s => Some (if (j + N.of_nat n) / P =? w then Some (field (BITS E) b ((j + N.of_nat n) mod P)) else s)
    | None => None
    end.
  Proof.
    induction l as [|s l IH]; intros j [|n]; cbn [poke nth_error]; try reflexivity.
    - rewrite N.add_0_r. reflexivity.
    - rewrite IH. replace (j + 1 + N.of_nat n) with (j + N.of_nat (S n)) by lia. reflexivity.
  Qed.

  Lemma tracks_set v u i d : tracks v u -> i < lenN (slots u) -> d < 2 ^ BITS E ->
    exists v', set_raw_unchecked c E i d v = (Ret tt, v') /\ tracks v' (mkRaw (rlen u) (l_set (slots u) i (Some d))).
  Proof.
    intros [Hv [Hl [Hle [Hcov Hk]]]] Hi Hdd. destruct (raw_write Hs (i := i) Hv ltac:(lia) Hdd) as [v' [E1 [V1 [L1 [S1 R1]]]]].
    exists v'. split; [exact E1|]. split; [exact V1|]. cbn [rlen slots]. rewrite l_set_len, L1, S1. repeat (split; [assumption|]).
    intros j d' Hj. rewrite l_set_get in Hj. pose proof (proj2 (N.ltb_lt _ _) Hi) as Hb. rewrite Hb, andb_true_r in Hj.
    assert (Hjl : j < lenN (slots u)).
    { destruct (N.eqb_spec j i) as [->|]; [exact Hi|]. unfold l_get in Hj. assert (nth_error (slots u) (N.to_nat j) <> None) as G by congruence.
      apply nth_error_Some in G. unfold lenN. lia. }
    rewrite R1 by lia. destruct (j =? i); [congruence|]. apply Hk. exact Hj.
  Qed.
  Lemma tracks_set_len v u n : tracks v u -> n <= lenN (slots u) ->
    exists v', set_len n v = (Ret tt, v') /\ tracks v' (mkRaw n (slots u)).
  Proof.
    intros Ht Hn. pose proof (tracks_small Ht) as Hsm. destruct Ht as [Hv [Hl [Hle [Hcov Hk]]]].
    destruct (set_len_raw Hs (n := n) Hv ltac:(lia) ltac:(lia)) as [v' [E1 [V1 _]]].
    exists v'. split; [exact E1|]. injection E1 as <-. split; [exact V1|]. split; [reflexivity|]. cbn [rlen slots storage].
    split; [exact Hn|]. split; [exact Hcov|]. exact Hk.
  Qed.
  Lemma tracks_poke v u w b : tracks v u -> w * P < lenN (slots u) -> b < 2 ^ W c ->
    exists v', storage_assign w b v = (Ret tt, v') /\ tracks v' (mkRaw (rlen u) (poke c E w b 0 (slots u))).
  Proof.
    intros [Hv [Hl [Hle [Hcov Hk]]]] Hw Hb. pose proof (proj1 (WF_valid (c := c) (E := E) v)) as WV. assert (HW : WF c E v) by (apply WF_valid; exact Hv).
    assert (Hwl : w < vlen (storage v)).
    { apply (N.mul_lt_mono_pos_r P); [pose proof (EPB_pos Hc Hcomp); lia|]. lia. }
    unfold storage_assign. rewrite store_ok by exact Hwl. eexists. split; [reflexivity|].
    split; [apply WF_valid; apply (WF_set_block Hc Hcomp Hd w HW Hb)|]. split; [exact Hl|]. cbn [rlen slots].
    assert (HL : lenN (poke c E w b 0 (slots u)) = lenN (slots u)) by (unfold lenN; rewrite poke_len; reflexivity).
    rewrite HL, vlen_set_block. repeat (split; [assumption|]). intros i d Hi. unfold l_get in Hi. rewrite poke_nth in Hi.
    destruct (nth_error (slots u) (N.to_nat i)) as [s|] eqn:Hn; [|discriminate].
    assert (Hil : i < lenN (slots u)). { assert (nth_error (slots u) (N.to_nat i) <> None) as G by congruence. apply nth_error_Some in G. unfold lenN. lia. }
    rewrite N.add_0_l, N2Nat.id in Hi.
    rewrite (get_raw_unchecked_spec Hc Hcomp) by (rewrite vlen_set_block; lia).
    rewrite (slotv_set_block Hc Hcomp Hd) by exact Hwl.
    destruct (i / P =? w); [injection Hi as <-; rewrite slot_field; reflexivity|].
    injection Hi as ->. rewrite <- (Hk i d Hn). rewrite (get_raw_unchecked_spec Hc Hcomp) by lia. reflexivity.
  Qed.
End Slots.

(** ** Clients *)
Section Sim.
  Context {T : Type} {c : cfg} {E : enumlike T}.
  Hypothesis Hs : setting c E.
  Hypothesis Hroomy : roomy c.
  Local Notation Hc := (s_ok Hs).
  Local Notation Hcomp := (s_comp Hs).
  Local Notation Hd := (s_d Hs).
  Local Notation P := (EPB c E).
  Local Notation tracks := (@tracks T c E).

  Lemma F2_len A B (R : A -> B -> Prop) l l' : Forall2 R l l' -> length l = length l'.
  Proof. induction 1; cbn; congruence. Qed.
  Lemma F2_nth A B (R : A -> B -> Prop) l l' r x : Forall2 R l l' -> nth_error l' r = Some x -> exists y, nth_error l r = Some y /\ R y x.
  Proof. intros H. revert r. induction H as [|a b l l' H0 H IH]; intros [|r] Hr; cbn in *; try discriminate; [injection Hr as <-; eauto|eauto]. Qed.
  Lemma F2_none A B (R : A -> B -> Prop) l l' r : Forall2 R l l' -> nth_error l' r = None -> nth_error l r = None.
  Proof. intros H Hr. apply nth_error_None. rewrite (F2_len H). apply nth_error_None. exact Hr. Qed.
  Lemma F2_upd A B (R : A -> B -> Prop) l l' r x y : Forall2 R l l' -> R x y -> Forall2 R (upd l r x) (upd l' r y).
  Proof. intros H Hx. revert r. induction H as [|a b l l' H0 H IH]; intros [|r]; cbn; constructor; auto. Qed.
  Lemma F2_intro A B (R : A -> B -> Prop) l : forall l', length l = length l' ->
    (forall r x y, nth_error l r = Some x -> nth_error l' r = Some y -> R x y) -> Forall2 R l l'.
  Proof.
    induction l as [|a l IH]; intros [|b l'] HL H; try discriminate; constructor.
    - exact (H O a b eq_refl eq_refl).
    - apply IH; [cbn in HL; lia|]. intros r x y. exact (H (S r) x y).
  Qed.

  Lemma inv_holds p sp : inv (c := c) (E := E) p sp -> Forall2 (holds c E) p sp.
  Proof.
    intros [cl [[H1 [H2 H3]] _]]. apply F2_intro; [exact H1|]. intros r v l Hv Hl.
    destruct (nth_error_same_len H2 Hv) as [b Hb]. exact (RC_holds Hs (H3 _ _ _ _ Hv Hl Hb)).
  Qed.

  (** the safe vectors of a pool, the others replaced by new ones *)
  Definition mask (p : list ev) (st : list raw) : list ev :=
    map (fun '(v, u) => if sound E u then v else ev_new c) (combine p st).
  Lemma mask_nth p : forall st r, Forall2 tracks p st -> nth_error (mask p st) r =
    match nth_error p r, nth_error st r with Some v, Some u => Some (if sound E u then v else ev_new c) | _, _ => None end.
  Proof.
    unfold mask. induction p as [|v p IH]; intros st r H; inversion H; subst; destruct r as [|r]; cbn; try reflexivity.
    apply IH. assumption.
  Qed.
  Lemma mask_len p st : Forall2 tracks p st -> length (mask p st) = length p.
  Proof. intros H. unfold mask. rewrite map_length, combine_length, (F2_len H). lia. Qed.
  Lemma mask_holds p st : Forall2 tracks p st -> Forall2 (holds c E) (mask p st) (map (contents E) st).
  Proof.
    intros H. apply F2_intro; [rewrite map_length, mask_len by exact H; exact (F2_len H)|].
    intros r v l Hv Hl. rewrite mask_nth in Hv by exact H. rewrite nth_error_map in Hl.
    destruct (nth_error st r) as [u|] eqn:Hu; [|discriminate]. destruct (F2_nth H Hu) as [v0 [Hv0 Ht]]. rewrite Hv0 in Hv.
    injection Hv as <-. injection Hl as <-. unfold sound, contents. destruct (elems E u) as [l|] eqn:He.
    - exact (tracks_holds Ht He).
    - exact (RC_holds Hs (l := []) (RC_new Hc Hcomp Hd)).
  Qed.

  Lemma existsb_in r l : existsb (Nat.eqb r) l = true <-> In r l.
  Proof. rewrite existsb_exists. split; [intros [x [H1 H2]]; apply Nat.eqb_eq in H2; subst; exact H1|]. intros H. exists r. split; [exact H|apply Nat.eqb_refl]. Qed.

  Lemma safe_sim p st o : Forall2 tracks p st -> plain_op c E o = true -> forallb (fun r => has st r (sound E)) (regs o) = true ->
    (exists p', m_step c E p o = (MRes (fst (u_step c E st (Safe o))), p') /\ Forall2 tracks p' (snd (u_step c E st (Safe o)))) \/
    fst (m_step c E p o) = MCap \/ fst (m_step c E p o) = MAbort.
  Proof.
    intros H Hok Hsnd. pose proof (mask_holds H) as Hm. pose proof (mask_len H) as HL.
    assert (Hregs : forall r, In r (regs o) -> nth_error p r = nth_error (mask p st) r).
    { intros r Hr. rewrite mask_nth by exact H. rewrite forallb_forall in Hsnd. specialize (Hsnd r Hr). unfold has in Hsnd.
      destruct (nth_error st r) as [u|] eqn:Hu.
      - destruct (F2_nth H Hu) as [v [Hv _]]. rewrite Hv, Hsnd. reflexivity.
      - rewrite (F2_none H Hu). reflexivity. }
    destruct (@step_local T c E p (mask p st) o (eq_sym HL) Hregs) as [L1 [L2 L3]].
    destruct (plain_sim Hs Hroomy (inv_start Hs Hroomy Hm) Hok) as [[q' [Eq Hq]]|G]; [left|right; rewrite L1; exact G].
    exists (snd (m_step c E p o)). cbn [u_step]. destruct (v_step E (map (contents E) st) o) as [x sp'] eqn:Hv. cbn [fst snd] in *.
    split. { destruct (m_step c E p o) as [a p']. rewrite Eq in L1. cbn [fst snd] in *. congruence. }
    rewrite Eq in L2, L3. cbn [snd] in L2, L3. apply inv_holds in Hq. pose proof (F2_len Hq) as HLq.
    apply F2_intro; [unfold keeps; rewrite map_length, seq_length; lia|]. intros r v u Hr Hu.
    assert (Hrl : (r < length sp')%nat). { rewrite <- HLq, <- L2. apply nth_error_Some. congruence. }
    unfold keeps in Hu. rewrite nth_error_map in Hu. rewrite (nth_error_nth' (seq 0 (length sp')) 0%nat) in Hu by (rewrite seq_length; exact Hrl).
    rewrite seq_nth in Hu by exact Hrl. cbn [option_map Nat.add] in Hu. injection Hu as Hu.
    destruct (nth_error sp' r) as [l|] eqn:Hl; [|apply nth_error_None in Hl; lia].
    rewrite (nth_error_nth _ _ [] Hl) in Hu.
    destruct (F2_nth Hq Hl) as [w [Hw Hh]].
    assert (Hfresh : In r (regs o) \/ (length p <= r)%nat -> (In r (changes o) \/ (length p <= r)%nat) -> tracks v (fresh E o l)).
    { intros Hin Hch. rewrite (L3 r Hin), Hw in Hr. injection Hr as ->. apply (holds_tracks Hs Hh).
      intros r0 k ->. cbn [changes regs m_step] in *.
      assert (r0 = r) as ->.
      { destruct Hch as [[G|[]]|G]; [exact G|]. exfalso. cbn [v_step s_step] in Hv. unfold s_on in Hv.
        assert (length sp' = length st).
        { destruct (nth_error (map (contents E) st) r0); injection Hv as _ <-; rewrite ?upd_length, map_length; reflexivity. }
        rewrite (F2_len H) in G. lia. }
      unfold m_on in Eq. assert (Hrs : (r < length st)%nat).
      { cbn [v_step s_step] in Hv. unfold s_on in Hv. destruct (nth_error (map (contents E) st) r); injection Hv as _ <-; rewrite ?upd_length, map_length in Hrl; exact Hrl. }
      rewrite <- (F2_len H), <- HL in Hrs. apply nth_error_Some in Hrs. destruct (nth_error (mask p st) r) as [v0|] eqn:Hv0; [|congruence].
      destruct (nth_error (map (contents E) st) r) as [l0|] eqn:Hl0.
      2:{ apply nth_error_None in Hl0. pose proof (F2_len Hm) as G. assert (nth_error (mask p st) r <> None) as G2 by congruence. apply nth_error_Some in G2. lia. }
      destruct (F2_nth Hm Hl0) as [v1 [Hv1 Hh1]]. assert (v1 = v0) by congruence. subst v1.
      cbn [v_step s_step] in Hv. unfold s_on in Hv. rewrite Hl0 in Hv. injection Hv as <- <-.
      rewrite nth_error_upd, Nat.eqb_refl in Hl. destruct (Nat.ltb r (length (map (contents E) st))); [|discriminate]. injection Hl as ->.
      assert (Hres : reservable c E (lenN l) k).
      { pose proof (holds_RC Hs v0 l) as [RC _]. specialize (RC Hh1).
        pose proof (amount_fits Hc Hcomp (s_alloc Hs) Hd RC Hok) as G. rewrite lenN_map in G. exact G. }
      pose proof (reserve_blocks Hs Hh1 Hres) as G. destruct (reserve c E k v0) as [[[]|q| |] v2]; cbn [of_outcome] in Eq; try discriminate Eq.
      2:{ cbn in G. destruct G as [[->| ->] _]; discriminate Eq. }
      injection Eq as <-. cbn in G. rewrite nth_error_upd, Nat.eqb_refl in Hw. destruct (Nat.ltb r (length (mask p st))); [|discriminate]. injection Hw as ->.
      destruct G as [_ [G _]]. lia. }
    destruct (nth_error st r) as [u0|] eqn:Hu0.
    - destruct (existsb (Nat.eqb r) (changes o)) eqn:Hch.
      + subst u. apply existsb_in in Hch. apply Hfresh; [left; exact (changes_regs Hch)|left; exact Hch].
      + subst u0. assert (Hnin : ~ In r (changes o)) by (intros X; apply existsb_in in X; congruence).
        destruct (F2_nth H Hu0) as [v0 [Hv0 Ht]]. rewrite (@step_keep T c E p o r Hnin) in Hr.
        * congruence.
        * apply nth_error_Some. congruence.
    - subst u. apply nth_error_None in Hu0. rewrite <- (F2_len H) in Hu0. apply Hfresh; right; exact Hu0.
  Qed.

  Lemma on_sim A p st r (m : M ev A) (k : A -> res T) f :
    (forall v u, nth_error st r = Some u -> tracks v u -> exists a v', m v = (Ret a, v') /\ k a = fst (f u) /\ tracks v' (snd (f u))) ->
    Forall2 tracks p st ->
    exists p', m_on p r m k = (MRes (fst (r_on st r f)), p') /\ Forall2 tracks p' (snd (r_on st r f)).
  Proof.
    intros Hm H. unfold m_on, r_on. destruct (nth_error st r) as [u|] eqn:Hu.
    - destruct (F2_nth H Hu) as [v [Hv Ht]]. rewrite Hv. destruct (Hm v u eq_refl Ht) as [a [v' [E1 [E2 E3]]]]. rewrite E1.
      destruct (f u) as [x u']. cbn [fst snd of_outcome] in *. subst x. eexists. split; [reflexivity|]. apply F2_upd; assumption.
    - rewrite (F2_none H Hu). eexists. split; [reflexivity|exact H].
  Qed.

  Lemma ustep_sim p st u : Forall2 tracks p st -> u_ok c E st u = true ->
    (exists p', m_ustep c E p u = (MRes (fst (u_step c E st u)), p') /\ Forall2 tracks p' (snd (u_step c E st u))) \/
    fst (m_ustep c E p u) = MCap \/ fst (m_ustep c E p u) = MAbort.
  Proof.
    intros H Hok. destruct u as [o|r i|r i d|r n|r w b]; cbn [u_ok m_ustep] in *.
    - apply andb_prop in Hok. destruct Hok as [H1 H2]. exact (safe_sim H H1 H2).
    - left. cbn [u_step]. unfold m_read, r_on. unfold has in Hok. destruct (nth_error st r) as [u|] eqn:Hu.
      + destruct (F2_nth H Hu) as [v [Hv Ht]]. rewrite Hv. destruct (l_get (slots u) i) as [[d|]|] eqn:Hi; try discriminate.
        destruct Ht as [T1 [T2 [T3 [T4 T5]]]]. rewrite (T5 _ _ Hi). cbn [of_outcome fst snd]. eexists. split; [reflexivity|].
        rewrite nth_error_upd_same by exact Hu. exact H.
      + rewrite (F2_none H Hu). eexists. split; [reflexivity|exact H].
    - left. cbn [u_step]. apply on_sim; [|exact H]. intros v u Hu Ht. unfold has in Hok. rewrite Hu in Hok. apply andb_prop in Hok. destruct Hok as [H1 H2].
      apply N.ltb_lt in H1. apply N.ltb_lt in H2. destruct (tracks_set Hs Ht H1 H2) as [v' [E1 E2]]. exists tt, v'. auto.
    - left. cbn [u_step]. apply on_sim; [|exact H]. intros v u Hu Ht. unfold has in Hok. rewrite Hu in Hok.
      apply N.leb_le in Hok. destruct (tracks_set_len Hs Hroomy Ht Hok) as [v' [E1 E2]]. exists tt, v'. auto.
    - left. cbn [u_step]. apply on_sim; [|exact H]. intros v u Hu Ht. unfold has in Hok. rewrite Hu in Hok. apply andb_prop in Hok. destruct Hok as [H1 H2].
      apply N.ltb_lt in H1. apply N.ltb_lt in H2. destruct (tracks_poke Hs Ht H1 H2) as [v' [E1 E2]]. exists tt, v'. auto.
  Qed.
  Lemma uclient_sim n : forall k seen p st, Forall2 tracks p st -> obeys c E n k seen st ->
    agrees (m_uplay c E n k seen p) (u_play c E n k seen st).
  Proof.
    induction n as [|n IH]; intros k seen p st H Hob; cbn [m_uplay u_play obeys] in *; [constructor|].
    destruct (k seen) as [u|]; [|constructor]. destruct Hob as [Hok Hob].
    destruct (ustep_sim H Hok) as [[p' [E1 H']]|G].
    - rewrite E1. destruct (u_step c E st u) as [x st']. cbn [fst snd] in *. constructor. apply IH; assumption.
    - destruct (m_ustep c E p u) as [a p']. cbn [fst] in G. destruct G as [-> | ->]; constructor.
  Qed.
  Lemma start_tracks p sp : Forall2 (holds c E) p sp -> Forall2 tracks p (map (fresh E ONew) sp).
  Proof. induction 1 as [|v l p sp H0 H IH]; cbn; constructor; [|exact IH]. apply (holds_tracks Hs H0). intros r k X. discriminate X. Qed.
End Sim.

(** ** Memory safety, for any implementation of EnumLike *)
Section Careful.
  Context {T : Type} {c : cfg} {E : enumlike T}.
  Hypothesis Hc : cfg_ok c.
  Hypothesis Hroomy : roomy c.
  Hypothesis Hcomp : compiles c E = true.
  Lemma F_upd A (Q : A -> Prop) l r x : Forall Q l -> Q x -> Forall Q (upd l r x).
  Proof. intros H Hx. revert r. induction H as [|a l H0 H IH]; intros [|r]; cbn; constructor; auto. Qed.
  Lemma on_valid A p r (m : M ev A) (k : A -> res T) :
    (forall v, nth_error p r = Some v -> valid c E v -> fst (m v) <> UB /\ valid c E (snd (m v))) ->
    Forall (valid c E) p -> fst (m_on p r m k) <> MUB /\ Forall (valid c E) (snd (m_on p r m k)).
  Proof.
    intros Hm H. unfold m_on. destruct (nth_error p r) as [v|] eqn:Hv; [|split; [discriminate|exact H]].
    assert (Hvv : valid c E v) by (rewrite Forall_forall in H; apply H; eapply nth_error_In; exact Hv).
    destruct (Hm v eq_refl Hvv) as [H1 H2]. destruct (m v) as [a v']. cbn [fst snd] in *. split; [|apply F_upd; assumption].
    destruct a as [a|q| |]; cbn; try discriminate; [destruct q; discriminate|congruence].
  Qed.
  Lemma careful_step p u : Forall (valid c E) p -> u_safe c E p u = true ->
    fst (m_ustep c E p u) <> MUB /\ (fst (m_ustep c E p u) <> MAbort -> Forall (valid c E) (snd (m_ustep c E p u))).
  Proof.
    intros H Hok. destruct u as [o|r i|r i d|r n|r w b]; cbn [u_safe m_ustep] in *.
    - exact (any_steps Hc Hcomp (roomy_isize Hc Hcomp Hroomy) H (tame_safe Hc Hroomy Hcomp H Hok)).
    - unfold m_read. unfold within in Hok. destruct (nth_error p r) as [v|] eqn:Hv; [|split; [discriminate|intros _; exact H]].
      apply N.leb_le in Hok. rewrite (get_raw_unchecked_spec Hc Hcomp) by (unfold vlen, storage_blocks in *; lia). split; [discriminate|intros _; exact H].
    - apply andb_prop in Hok. destruct Hok as [H1 H2]. unfold within in H1.
      cut (fst (m_on (T := T) p r (set_raw_unchecked c E i d) (fun _ => RUnit)) <> MUB /\ Forall (valid c E) (snd (m_on (T := T) p r (set_raw_unchecked c E i d) (fun _ => RUnit)))).
      { intros [G1 G2]. split; [exact G1|intros _; exact G2]. }
      apply on_valid; [|exact H]. intros v Hv Hvv. rewrite Hv in H1. apply N.leb_le in H1.
      rewrite (set_raw_unchecked_spec Hc Hcomp) by (unfold vlen, storage_blocks in *; lia). cbn [fst snd]. split; [discriminate|].
      apply WF_valid, (WF_set_at Hc Hcomp), WF_valid, Hvv.
    - apply andb_prop in Hok. destruct Hok as [H1 H2]. unfold within in H1.
      cut (fst (m_on (T := T) p r (set_len n) (fun _ => RUnit)) <> MUB /\ Forall (valid c E) (snd (m_on (T := T) p r (set_len n) (fun _ => RUnit)))).
      { intros [G1 G2]. split; [exact G1|intros _; exact G2]. }
      apply on_valid; [|exact H]. intros v Hv Hvv. rewrite Hv in H1. apply N.leb_le in H1. apply N.leb_le in H2.
      split; [discriminate|]. cbn. destruct Hvv as [K1 [K2 [K3 [K4 K5]]]]. repeat split; assumption.
    - apply N.ltb_lt in Hok.
      cut (fst (m_on (T := T) p r (storage_assign w b) (fun _ => RUnit)) <> MUB /\ Forall (valid c E) (snd (m_on (T := T) p r (storage_assign w b) (fun _ => RUnit)))).
      { intros [G1 G2]. split; [exact G1|intros _; exact G2]. }
      apply on_valid; [|exact H]. intros v Hv Hvv. unfold storage_assign. destruct (N.lt_ge_cases w (vlen (storage v))) as [G|G].
      + rewrite store_ok by exact G. split; [discriminate|]. cbn [snd]. destruct Hvv as [K1 [K2 [K3 [K4 K5]]]].
        split; [|repeat split; rewrite ?vlen_set_block; assumption]. intros x Hx. unfold set_block in Hx. cbn in Hx.
        apply Forall_forall with (l := updN (data (storage v)) w b) (P := fun x => x < 2 ^ W c); [|exact Hx]. apply Forall_updN; [|exact Hok]. rewrite Forall_forall. exact K1.
      + unfold store. rewrite (proj2 (N.ltb_ge _ _)) by exact G. split; [discriminate|exact Hvv].
  Qed.
  Lemma careful_safe n : forall k seen p, Forall (valid c E) p -> u_careful c E n k seen p -> ~ In MUB (m_uplay c E n k seen p).
  Proof.
    induction n as [|n IH]; intros k seen p Hp Hk; cbn [m_uplay u_careful] in *; [intros []|].
    destruct (k seen) as [u|]; [|intros []]. destruct Hk as [Hok Hk].
    destruct (careful_step Hp Hok) as [H1 H2].
    destruct (m_ustep c E p u) as [[x| | |] p']; cbn [fst snd] in *; cbn [In]; try (intros [X|[]]; congruence).
    intros [X|X]; [discriminate|]. exact (IH _ _ _ (H2 ltac:(discriminate)) Hk X).
  Qed.
End Careful.

(** ** Writing many elements by hand *)
Section Bulk.
  Context {T : Type} {c : cfg} {E : enumlike T}.
  Hypothesis Hs : setting c E.
  Hypothesis Hroomy : roomy c.
  Local Notation tracks := (@tracks T c E).
  Lemma l_set_app A (a : list A) x y b : l_set (a ++ x :: b) (lenN a) y = a ++ y :: b.
  Proof. unfold l_set, lenN. rewrite Nat2N.id. induction a as [|h a IH]; cbn; [reflexivity|]. f_equal. exact IH. Qed.
  Lemma write_all_tracks xs : forall n done v, (forall i, In i xs -> to_d E i < 2 ^ BITS E) ->
    tracks v (mkRaw n (map Some done ++ repeat None (length xs))) ->
    exists v', write_all c E (lenN done) xs v = (Ret tt, v') /\ tracks v' (mkRaw n (map Some (done ++ map (to_d E) xs))).
  Proof.
    induction xs as [|x xs IH]; intros n done v Hx Ht; cbn [write_all length repeat map] in *.
    - exists v. split; [reflexivity|]. rewrite !app_nil_r in *. exact Ht.
    - destruct (tracks_set Hs (i := lenN done) (d := to_d E x) Ht) as [v1 [E1 T1]].
      { cbn [slots]. unfold lenN. rewrite app_length, map_length. cbn [length]. lia. }
      { apply Hx. left. reflexivity. }
      cbn [rlen slots] in T1. replace (lenN done) with (lenN (map Some done)) in T1 by (unfold lenN; rewrite map_length; reflexivity).
      rewrite l_set_app in T1. unfold bind. rewrite E1.
      destruct (IH n (done ++ [to_d E x]) v1) as [v2 [E2 T2]].
      { intros i Hi. apply Hx. right. exact Hi. }
      { rewrite map_app. cbn [map]. rewrite <- app_assoc. exact T1. }
      exists v2. split; [|rewrite <- app_assoc in T2; exact T2].
      rewrite <- E2. f_equal. unfold lenN. rewrite app_length. cbn. lia.
  Qed.
  Lemma bulk_write v l xs : holds c E v l -> reservable c E (lenN l) (lenN xs) ->
    result ((reserve c E (lenN xs) ;;; set_len (lenN l + lenN xs) ;;; write_all c E (lenN l) xs) v)
      (fun _ v' => holds c E v' (l ++ xs))
      (fun k v' => no_room k /\ v' = v).
  Proof.
    intros H Hr. unfold bind at 1. pose proof (reserve_blocks Hs H Hr) as G.
    destruct (reserve c E (lenN xs) v) as [[[]|k| |] v1]; cbn [result] in G |- *; try assumption. destruct G as [G1 [G2 GU]].
    assert (Ht : tracks v1 (fresh E (OReserve 0 (lenN xs)) l)).
    { apply (holds_tracks Hs G1). intros r k X. injection X as _ <-. lia. }
    unfold bind. destruct (tracks_set_len Hs Hroomy (n := lenN l + lenN xs) Ht) as [v2 [E2 T2]].
    { cbn [slots fresh]. unfold lenN. rewrite app_length, map_length, repeat_length. lia. }
    rewrite E2. cbn [slots fresh] in T2. unfold lenN in T2 at 3. rewrite Nat2N.id in T2.
    destruct (@write_all_tracks xs (lenN l + lenN xs) (map (to_d E) l) v2) as [v3 [E3 T3]].
    { intros i _. apply (s_d Hs). }
    { rewrite map_map. exact T2. }
    rewrite lenN_map in E3. rewrite E3. cbn [result]. apply (tracks_holds T3).
    unfold elems. cbn [rlen slots]. rewrite <- map_app, map_map. rewrite firstn_all2 by (rewrite map_length, app_length; unfold lenN; lia).
    apply (values_of_map Hs).
  Qed.
End Bulk.
