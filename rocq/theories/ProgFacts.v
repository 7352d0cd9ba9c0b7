(** ProgFacts.v -- consequences of run_sim and run_safe in the form PropProg.v states
    them; and the complete behaviour of reserve. *)
From Verif Require Export ClaimFacts4.
From Coq Require Import ZifyBool ZifyNat ZifyN.
Open Scope N_scope.
Set Implicit Arguments.
Unset Strict Implicit.
Set Default Proof Using "Type*".


Section Prog.
  Context {T : Type} {c : cfg} {E : enumlike T}.
  Hypothesis Hs : setting c E.
  Local Notation sim := (run_sim (s_ok Hs) (s_comp Hs) (s_alloc Hs) (s_d Hs) (s_fd Hs)).

  Lemma program_sim prog : ok_program c E prog = true -> agrees (fst (m_run c E [] prog)) (fst (s_run (to_d E) [] prog)).
  Proof. intros H. apply (sim (PR_nil (s_ok Hs) (s_comp Hs) (s_alloc Hs) (s_d Hs) (s_fd Hs)) H). Qed.
  Lemma PR_one v l b : holds c E v l -> (b = true -> tidy c E v) -> @PR T c E [v] [l] [b].
  Proof.
    intros H Hb. split; [reflexivity|]. split; [reflexivity|]. intros [|[|r]] v' l' b' H1 H2 H3; try discriminate.
    injection H1 as <-. injection H2 as <-. injection H3 as <-. destruct b.
    - apply (holds_tidy_RC Hs); auto.
    - apply (holds_RC Hs). exact H.
  Qed.
  Lemma from_one v l b prog : holds c E v l -> (b = true -> tidy c E v) -> ok_run c E [l] [b] prog = true ->
    agrees (fst (m_run c E [v] prog)) (fst (s_run (to_d E) [l] prog)).
  Proof. intros H Hb Hok. apply (sim (PR_one H Hb) Hok). Qed.
  Lemma indistinct v w l b prog : holds c E v l -> holds c E w l -> (b = true -> tidy c E v /\ tidy c E w) ->
    ok_run c E [l] [b] prog = true ->
    Forall completed (fst (m_run c E [v] prog)) -> Forall completed (fst (m_run c E [w] prog)) ->
    fst (m_run c E [v] prog) = fst (m_run c E [w] prog).
  Proof.
    intros Hv Hw Hb Hok H1 H2.
    rewrite (agrees_completed (from_one Hv (fun e => proj1 (Hb e)) Hok) H1).
    rewrite (agrees_completed (from_one Hw (fun e => proj2 (Hb e)) Hok) H2). reflexivity.
  Qed.

  (** every outcome of reserve *)
  Lemma reserve_all v l k : holds c E v l ->
    (EPB c E = 1 -> lenN l + k = usize_max c -> ovf c = true) ->
    result (reserve c E k v) (fun _ v' => holds c E v' l /\ lenN l + k <= capacity c E v') (fun _ v' => v' = v).
  Proof.
    intros H Hx. destruct (N.eq_dec (EPB c E) 1) as [HP|HP].
    - destruct (N.eq_dec (lenN l + k) (usize_max c)) as [Hk|Hk].
      + pose proof (holds_len Hs H) as HL. unfold len in HL.
        rewrite (reserve_wraps_debug (s_ok Hs) (s_comp Hs) (s_d Hs) (v := v) (k := k) (Hx HP Hk) HP); [reflexivity|lia].
      + destruct (N.lt_ge_cases (lenN l + k) (usize_max c)) as [Hlt|Hge].
        * pose proof (reserve_ok Hs H (or_intror Hlt)) as G. destruct (reserve c E k v) as [[a|q| |] v']; cbn [result] in *; auto. apply G.
        * apply (holds_RC Hs) in H.
          rewrite (RC_reserve_overflow (s_ok Hs) (s_comp Hs) (s_d Hs) H); [reflexivity|]. rewrite lenN_map. lia.
    - pose proof (Ppos (s_ok Hs) (s_comp Hs) (s_d Hs)) as H1.
      assert (Hr : reservable c E (lenN l) k) by (left; lia).
      pose proof (reserve_ok Hs H Hr) as G. destruct (reserve c E k v) as [[a|q| |] v']; cbn [result] in *; auto. apply G.
  Qed.
  Lemma reserve_empties v l k : holds c E v l -> EPB c E = 1 -> lenN l + k = usize_max c -> ovf c = false ->
    exists v', reserve c E k v = (Ret tt, v') /\ len v' = lenN l /\ forall i, i < lenN l -> get c E i v' = UB.
  Proof.
    intros H HP Hk Ho. pose proof (holds_len Hs H) as HL. unfold len in HL.
    rewrite (reserve_wraps (s_ok Hs) (s_comp Hs) (s_d Hs) (v := v) (k := k) Ho HP) by lia. eexists. split; [reflexivity|].
    split; [exact HL|]. intros i Hi. apply (get_no_storage Hs); [unfold len; cbn [num]; lia|reflexivity].
  Qed.
  (** when BITS divides W there are no unused bits *)
  Lemma tidy_divides v : valid c E v -> W c mod BITS E = 0 -> tidy c E v.
  Proof.
    intros [Hv _] Hm b Hb. specialize (Hv b Hb).
    assert (EPB c E * BITS E = W c) as ->; [|exact Hv].
    unfold EPB. pose proof (N.div_mod (W c) (BITS E)) as G. pose proof (BITS_range (s_ok Hs) (s_comp Hs)). lia.
  Qed.
  Lemma remove_divides v l i x : countable c E (i + 1) -> holds c E v l -> l_get l i = Some x -> BITS E < W c -> W c mod BITS E = 0 ->
    exists v', remove c E i v = (Ret x, v') /\ holds c E v' (l_remove l i).
  Proof.
    intros Hn H Hi Hw Hm. destruct (remove_ok Hs Hn H Hi) as [v' [H1 [H2 _]]]; [|exists v'; auto].
    left. split; [exact Hw|]. exact (tidy_divides (proj1 H) Hm).
  Qed.
End Prog.

(** calls leave alone the vectors they do not mention *)
Lemma step_frame T (c : cfg) (E : enumlike T) p o r : ~ In r (regs o) -> (r < length p)%nat ->
  nth_error (snd (m_step c E p o)) r = nth_error p r.
Proof.
  intros Hr Hl.
  assert (Hu : forall q r0 (v : ev), r0 <> r -> nth_error (upd q r0 v) r = nth_error q r).
  { intros q r0 v Hne. rewrite nth_error_upd. destruct (Nat.eqb_spec r0 r); [contradiction|reflexivity]. }
  assert (Hon : forall A r0 (m : M ev A) k, r0 <> r -> nth_error (snd (m_on (T := T) p r0 m k)) r = nth_error p r).
  { intros A r0 m k Hne. unfold m_on. destruct (nth_error p r0) as [v|]; [|reflexivity]. destruct (m v) as [a v']. apply Hu. exact Hne. }
  assert (Hread : forall A r0 (f : ev -> outcome A) k, nth_error (snd (m_read (T := T) p r0 f k)) r = nth_error p r).
  { intros A r0 f k. unfold m_read. destruct (nth_error p r0); reflexivity. }
  assert (Hnew : forall q o0, (r < length q)%nat -> nth_error (snd (m_new (T := T) q o0)) r = nth_error q r).
  { intros q o0 Hq. unfold m_new. destruct o0; try reflexivity. apply nth_error_app1. exact Hq. }
  destruct o; cbn [m_step regs] in *; try (apply Hnew; exact Hl); try (apply Hon; intros ->; apply Hr; left; reflexivity); try apply Hread.
  - destruct (nth_error p r0); [apply Hnew; exact Hl|reflexivity].
  - destruct (nth_error p r0); [|reflexivity]. destruct (nth_error p r2); [|reflexivity]. destruct (Nat.eqb r0 r2); [reflexivity|].
    destruct (append c E (e, e0)) as [a s]. cbn [snd]. rewrite !Hu; [reflexivity|..]; intros ->; apply Hr; cbn; auto.
  - destruct (nth_error p r0); [|reflexivity]. assert (Hne : r0 <> r) by (intros ->; apply Hr; left; reflexivity).
    destruct (split_off c E at_ e) as [[w|k| |] v']; cbn [snd]; try (apply Hu; exact Hne).
    rewrite nth_error_app1; [apply Hu; exact Hne|]. rewrite upd_length. exact Hl.
  - destruct (nth_error p r0); [|reflexivity]. destruct (nth_error p r2); reflexivity.
Qed.
Lemma step_length T (c : cfg) (E : enumlike T) p o : (length p <= length (snd (m_step c E p o)))%nat.
Proof.
  assert (Hon : forall A r0 (m : M ev A) k, length (snd (m_on (T := T) p r0 m k)) = length p).
  { intros A r0 m k. unfold m_on. destruct (nth_error p r0) as [v|]; [|reflexivity]. destruct (m v) as [a v']. apply upd_length. }
  assert (Hread : forall A r0 (f : ev -> outcome A) k, length (snd (m_read (T := T) p r0 f k)) = length p).
  { intros A r0 f k. unfold m_read. destruct (nth_error p r0); reflexivity. }
  assert (Hnew : forall o0, (length p <= length (snd (m_new (T := T) p o0)))%nat).
  { intros o0. unfold m_new. destruct o0; cbn [snd]; try lia. rewrite app_length. lia. }
  destruct o; cbn [m_step] in *; try apply Hnew; try (rewrite Hon; lia); try (rewrite Hread; lia).
  - destruct (nth_error p r); [apply Hnew|cbn [snd]; lia].
  - destruct (nth_error p r); [|cbn [snd]; lia]. destruct (nth_error p r2); [|cbn [snd]; lia]. destruct (Nat.eqb r r2); [cbn [snd]; lia|].
    destruct (append c E (e, e0)) as [a s]. cbn [snd]. rewrite !upd_length. lia.
  - destruct (nth_error p r); [|cbn [snd]; lia].
    destruct (split_off c E at_ e) as [[w|k| |] v']; cbn [snd]; rewrite ?app_length, ?upd_length; lia.
  - destruct (nth_error p r); [|cbn [snd]; lia]. destruct (nth_error p r2); cbn [snd]; lia.
Qed.
Lemma run_frame T (c : cfg) (E : enumlike T) prog : forall p r, (forall o, In o prog -> ~ In r (regs o)) -> (r < length p)%nat ->
  nth_error (snd (m_run c E p prog)) r = nth_error p r.
Proof.
  induction prog as [|o prog IH]; intros p r Hr Hl; cbn [m_run]; [reflexivity|].
  pose proof (@step_frame T c E p o r (Hr o (or_introl eq_refl)) Hl) as Hf. pose proof (@step_length T c E p o) as Hle.
  destruct (m_step c E p o) as [x p']. cbn [snd] in *.
  assert (Hk : nth_error (snd (m_run c E p' prog)) r = nth_error p r).
  { rewrite IH; [exact Hf| |lia]. intros o' Ho'. apply Hr. right. exact Ho'. }
  destruct x as [x| | |]; try exact Hf; destruct (m_run c E p' prog) as [rs p'']; exact Hk.
Qed.
Lemma same_config T (c1 c2 : cfg) (E : enumlike T) prog : setting c1 E -> setting c2 E ->
  ok_program c1 E prog = true -> ok_program c2 E prog = true ->
  Forall completed (fst (m_run c1 E [] prog)) -> Forall completed (fst (m_run c2 E [] prog)) ->
  fst (m_run c1 E [] prog) = fst (m_run c2 E [] prog).
Proof.
  intros H1 H2 O1 O2 C1 C2. rewrite (agrees_completed (program_sim H1 O1) C1), (agrees_completed (program_sim H2 O2) C2). reflexivity.
Qed.
Lemma append_aligned_UB T (c : cfg) (E : enumlike T) (Hs : setting c E) (Hsm : small c = false) v w l m :
  holds c E v l -> holds c E w m -> lenN l mod EPB c E = 0 ->
  roomy c \/ countable c E (lenN m) /\ lenN l + lenN m <= usize_max c ->
  result (append c E (v, w))
    (fun _ s => holds c E (fst s) (l ++ m) /\ len (snd s) = lenN m /\ forall i, i < lenN m -> get c E i (snd s) = UB)
    (fun k s => no_room k /\ holds c E (fst s) l /\ holds c E (snd s) m).
Proof.
  intros H1 H2 Hg Hx. pose proof (append_aligned Hs Hsm H1 H2 Hg Hx) as G.
  destruct (append c E (v, w)) as [[a|k| |] s]; cbn [result] in *; auto. destruct G as [G1 [G2 G3]].
  split; [exact G1|]. split; [exact G2|]. intros i Hi. apply (get_no_storage Hs); [lia|exact G3].
Qed.
Lemma wide_rejected T (c : cfg) (E : enumlike T) : cfg_ok c -> W c <= 32 -> 2 ^ 32 < nv E -> compiles c E = false.
Proof.
  intros H1 H2 H3. destruct (compiles c E) eqn:Hx; [|reflexivity]. pose proof (width_32 H1 Hx H3). lia.
Qed.
Lemma shrink_dense T (c : cfg) (E : enumlike T) (Hs : setting c E) v l u : countable c E (lenN l) -> holds c E v l -> l <> [] ->
  In u [8; 16; 32] -> BITS E <= u -> u <= W c ->
  exists v', shrink_to_fit c E v = (Ret tt, v') /\ holds c E v' l /\
    vlen (storage v') = (lenN l + (EPB c E - 1)) / EPB c E /\
    W c * vlen (storage v') + u <= u * lenN l + W c.
Proof.
  intros Hn H Hl Hu H4 H5. destruct (shrink_exact Hs Hn H) as [v' [H1 [H2 [H3 _]]]]. exists v'. split; [exact H1|]. split; [exact H2|].
  split; [exact H3|]. rewrite H3. apply (dense_blocks (s_ok Hs) (s_comp Hs) Hu H4 H5). destruct l; [congruence|]. unfold lenN. cbn. lia.
Qed.
Lemma shrink_keeps T (c : cfg) (E : enumlike T) (Hs : setting c E) v l : countable c E (lenN l) -> holds c E v l ->
  exists v', shrink_to_fit c E v = (Ret tt, v') /\ holds c E v' l.
Proof. intros Hn H. destruct (shrink_exact Hs Hn H) as [v' [H1 [H2 _]]]. exists v'. auto. Qed.
Lemma from_elem_quadratic T (c : cfg) (E : enumlike T) (Hs : setting c E) x n v : n <= usize_max c -> 4 * EPB c E < n -> from_elem c E x n = Ret v ->
  ((n - EPB c E) / EPB c E) * ((n - EPB c E) / EPB c E) <= vcap (storage v).
Proof.
  intros Hn H4 H. unfold from_elem, build in H.
  destruct (extend_with_value c E x n (ev_new c)) as [[a|k| |] v'] eqn:Hx; cbn in H; try discriminate.
  injection H as <-. destruct a. apply (fill_allocates Hs (proj1 (new_ok Hs)) H4 Hn Hx).
Qed.
Lemma clone_eq T (c : cfg) (E : enumlike T) (Hs : setting c E) v l : holds c E v l ->
  builds (clone c v) (fun v' => holds c E v' l /\ eq c E v v' = Ret true) (fun k => k = PCapacity).
Proof.
  intros H. pose proof (clone_ok Hs H) as G. destruct (clone c v) as [w|k| |]; cbn [builds] in *; auto.
  split; [exact G|]. destruct (eq_ok Hs H G) as [b [H1 H2]]. rewrite H1. f_equal. apply H2. reflexivity.
Qed.
