(** PoolFacts.v -- programs on pools of vectors: agreement with Vec, memory safety. *)
From Verif Require Export MoreFacts Guard.
From Coq Require Import ZifyBool ZifyNat ZifyN.
Open Scope N_scope.
Set Implicit Arguments.
Unset Strict Implicit.
Set Default Proof Using "Type*".

Lemma nth_error_upd_same A (l : list A) r x : nth_error l r = Some x -> upd l r x = l.
Proof. revert r. induction l as [|h t IH]; intros [|r] H; cbn in *; try discriminate; [congruence|]. rewrite IH; auto. Qed.
Lemma nth_error_app_last A (l : list A) x r y : nth_error (l ++ [x]) r = Some y ->
  nth_error l r = Some y \/ (r = length l /\ y = x).
Proof.
  intros H. destruct (Nat.lt_ge_cases r (length l)) as [Hlt|Hge].
  - rewrite nth_error_app1 in H by exact Hlt. auto.
  - rewrite nth_error_app2 in H by exact Hge. destruct (r - length l)%nat as [|n] eqn:Hn; cbn in H.
    + right. split; [lia|congruence].
    + destruct n; discriminate.
Qed.
Lemma reg_nth A (p : list A) d r x : nth_error p r = Some x -> reg p d r = x.
Proof. intros H. unfold reg. apply nth_error_nth. exact H. Qed.
Lemma nth_error_same_len A B (l : list A) (l' : list B) r x : length l = length l' -> nth_error l r = Some x ->
  exists y, nth_error l' r = Some y.
Proof.
  intros HL H. assert (r < length l)%nat by (apply nth_error_Some; congruence).
  destruct (nth_error l' r) as [y|] eqn:Hy; [eauto|]. apply nth_error_None in Hy. lia.
Qed.
Lemma nth_error_none_len A B (l : list A) (l' : list B) r : length l = length l' -> nth_error l r = None -> nth_error l' r = None.
Proof. intros HL H. apply nth_error_None in H. apply nth_error_None. lia. Qed.

Lemma skipn_add A (l : list A) a : forall b, skipn a (skipn b l) = skipn (b + a) l.
Proof. revert l. fix IH 2. intros l [|b]; [reflexivity|]. destruct l as [|x l]; [cbn; apply skipn_nil|]. cbn. apply IH. Qed.
Lemma upd_none A (l : list A) r x : (length l <= r)%nat -> upd l r x = l.
Proof. revert r. induction l as [|h t IH]; intros [|r] H; cbn in *; try reflexivity; [lia|]. rewrite IH by lia. reflexivity. Qed.
Lemma get_D T (l : list T) i : nthN l i = l_get l i.
Proof. reflexivity. Qed.
Lemma firstn_snoc A (l : list A) n x : nth_error l n = Some x -> firstn (S n) l = firstn n l ++ [x].
Proof.
  revert l. induction n as [|n IH]; intros [|y l] H; cbn in H; try discriminate.
  - injection H as ->. reflexivity.
  - change (firstn (S (S n)) (y :: l)) with (y :: firstn (S n) l). rewrite (IH _ H). reflexivity.
Qed.
Lemma bool_eq (a b : bool) : (a = true <-> b = true) -> a = b.
Proof. destruct a, b; intros [H1 H2]; try reflexivity; [symmetry; apply H1; reflexivity|apply H2; reflexivity]. Qed.
Lemma ook_mono A (Q Q' : A -> Prop) (F F' : panic -> Prop) o :
  ook Q F o -> (forall a, Q a -> Q' a) -> (forall k, F k -> F' k) -> ook Q' F' o.
Proof. destruct o; cbn; auto. Qed.

Section Pool.
  Context {T : Type} {c : cfg} {E : enumlike T}.
  Local Notation B := (BITS E).
  Local Notation P := (EPB c E).
  Local Notation WF := (WF c E).
  Local Notation RC := (RC c E).
  Local Notation D := (map (to_d E)).

  Hypothesis Hc : cfg_ok c.
  Hypothesis Hcomp : compiles c E = true.
  Hypothesis Hai : alloc_isize c.
  Hypothesis Hd : forall x, to_d E x < 2 ^ B.

  Lemma amount_fits cl v ds k : RC cl v ds -> amount c E k = true -> reserve_fits c E (lenN ds) k.
  Proof.
    intros H Hk. unfold amount, usz in Hk. apply andb_true_iff in Hk. destruct Hk as [_ Hk].
    unfold reserve_fits. destruct (N.leb_spec 2 P) as [|HP]; [left; assumption|right].
    cbn in Hk. apply N.leb_le in Hk. pose proof (RC_cover Hc Hcomp Hd H) as Hcv.
    pose proof (wf_cap (rc_wf H)). pose proof (wf_alloc (rc_wf H)).
    assert (HP1 : P = 1) by (pose proof (Ppos Hc Hcomp Hd); lia). rewrite HP1 in Hcv.
    pose proof (W8 Hc Hcomp Hd) as HW. pose proof (usize_pow Hc Hcomp) as Hu. pose proof Hai as Hb'. unfold alloc_isize in Hb'.
    unfold isize_max in *.
    assert (H2 : 2 ^ usize_bits c = 2 * 2 ^ (usize_bits c - 1)).
    { rewrite <- N.pow_succ_r'. f_equal. destruct (ok_usize Hc) as [-> | ->]; reflexivity. }
    pose proof (pow2_pos (usize_bits c - 1)).
    assert (alloc_max c * 8 <= alloc_max c * W c) by (apply N.mul_le_mono_l; lia). lia.
  Qed.
  Lemma countable_fixable n : countableb c E n = true -> fixable c E n.
  Proof. unfold countableb, fixable. lia. Qed.
  Lemma summable_fits m n : summableb c E m n = true -> need c E m + need c E n <= alloc_max c -> m + n <= usize_max c.
  Proof. unfold summableb, need. intros H G. apply orb_true_iff in H. destruct H as [H|H]; [lia|]. apply N.ltb_lt in H. lia. Qed.
  Lemma amount_usz k : amount c E k = true -> k <= usize_max c.
  Proof. intros H. unfold amount, usz in H. apply andb_true_iff in H. destruct H as [H _]. apply N.leb_le. exact H. Qed.

  Lemma RC_or cl v ds : RC cl v ds -> RC (cl || divides c E) v ds.
  Proof.
    intros H. unfold divides. destruct (N.eqb_spec (W c mod B) 0) as [Hm|Hm].
    - rewrite orb_true_r. apply (RC_upgrade Hc Hcomp Hd Hm H).
    - rewrite orb_false_r. exact H.
  Qed.

  (** iterators *)
  Section Lawful.
  Hypothesis Hfd : forall x, from_d E (to_d E x) = Some x.

  Definition left_of (l : list T) (r : range) : list T :=
    firstn (N.to_nat (r_end r - r_start r)) (skipn (N.to_nat (r_start r)) l).
  Lemma iter_item_lawful cl v l i x : RC cl v (D l) -> nthN l i = Some x -> iter_item c E v (Some i) = Ret (Some x).
  Proof.
    intros H Hi. rewrite (RC_iter_item Hc Hcomp Hd _ H), nthN_map, Hi. cbn. unfold from_discr. rewrite Hfd. reflexivity.
  Qed.
  Lemma left_len l r : r_end r <= lenN l -> lenN (left_of l r) = r_end r - r_start r.
  Proof. intros H. unfold left_of. rewrite lenN_firstn, lenN_skipn. lia. Qed.
  Lemma left_empty l r : r_end r <= r_start r -> left_of l r = [].
  Proof. intros H. unfold left_of. replace (N.to_nat (r_end r - r_start r)) with O by lia. reflexivity. Qed.
  Lemma left_cons l s e x : s < e -> nthN l s = Some x -> left_of l (mkRange s e) = x :: left_of l (mkRange (s + 1) e).
  Proof.
    intros Hs Hx. unfold left_of; cbn [r_start r_end]. rewrite (nthN_skip Hx).
    replace (N.to_nat (e - s)) with (S (N.to_nat (e - (s + 1)))) by lia. reflexivity.
  Qed.
  Lemma left_skip l s e n : s + n <= e -> skipn (N.to_nat n) (left_of l (mkRange s e)) = left_of l (mkRange (s + n) e).
  Proof.
    intros H. unfold left_of; cbn [r_start r_end]. rewrite skipn_firstn_comm, skipn_add. f_equal; [lia|f_equal; lia].
  Qed.
  Lemma left_snoc l s e x : s < e -> nthN l (e - 1) = Some x -> left_of l (mkRange s e) = left_of l (mkRange s (e - 1)) ++ [x].
  Proof.
    intros Hs Hx. unfold left_of; cbn [r_start r_end].
    replace (N.to_nat (e - s)) with (S (N.to_nat (e - 1 - s))) by lia. apply firstn_snoc.
    rewrite nth_error_skipn. unfold nthN in Hx. rewrite <- Hx. f_equal. lia.
  Qed.

  Lemma iter_next_ok cl v l r : RC cl v (D l) -> r_end r <= lenN l -> exists r',
    iter_next c E v r = (Ret (fst (q_next (left_of l r))), r') /\
    left_of l r' = snd (q_next (left_of l r)) /\ r_end r' <= lenN l.
  Proof.
    intros H Hr. destruct r as [s e]. unfold iter_next, range_next; cbn [r_start r_end] in *.
    destruct (N.ltb_spec s e) as [Hs|Hs].
    - destruct (@nthN_lt_Some _ l s) as [x Hx]; [lia|]. rewrite (iter_item_lawful H Hx), (left_cons Hs Hx).
      eexists; split; [reflexivity|]. split; [reflexivity|exact Hr].
    - rewrite left_empty by exact Hs. eexists; split; [reflexivity|]. split; [apply left_empty; exact Hs|exact Hr].
  Qed.
  Lemma iter_next_back_ok cl v l r : RC cl v (D l) -> r_end r <= lenN l -> exists r',
    iter_next_back c E v r = (Ret (fst (q_next_back (left_of l r))), r') /\
    left_of l r' = snd (q_next_back (left_of l r)) /\ r_end r' <= lenN l.
  Proof.
    intros H Hr. destruct r as [s e]. unfold iter_next_back, range_next_back, q_next_back; cbn [r_start r_end] in *.
    destruct (N.ltb_spec s e) as [Hs|Hs].
    - destruct (@nthN_lt_Some _ l (e - 1)) as [x Hx]; [lia|]. rewrite (iter_item_lawful H Hx), (left_snoc Hs Hx), l_pop_snoc.
      eexists; split; [reflexivity|]. cbn. split; [reflexivity|lia].
    - rewrite left_empty by exact Hs. eexists; split; [reflexivity|]. cbn. split; [apply left_empty; exact Hs|exact Hr].
  Qed.
  Lemma iter_nth_ok cl v l r n : RC cl v (D l) -> r_end r <= lenN l -> exists r',
    iter_nth c E v n r = (Ret (fst (q_nth (left_of l r) n)), r') /\
    left_of l r' = snd (q_nth (left_of l r) n) /\ r_end r' <= lenN l.
  Proof.
    intros H Hr. unfold q_nth. rewrite (left_len Hr). destruct r as [s e]. unfold iter_nth, range_nth; cbn [r_start r_end] in *.
    destruct (N.ltb_spec (s + n) e) as [Hs|Hs].
    - rewrite (proj2 (N.ltb_lt n (e - s))) by lia.
      destruct (@nthN_lt_Some _ l (s + n)) as [x Hx]; [lia|].
      rewrite (iter_item_lawful H Hx), left_skip, (left_cons Hs Hx) by lia.
      eexists; split; [reflexivity|]. split; [reflexivity|exact Hr].
    - rewrite (proj2 (N.ltb_ge n (e - s))) by lia. eexists; split; [reflexivity|]. cbn.
      split; [apply left_empty; cbn; lia|exact Hr].
  Qed.
  Lemma m_iter_ok cl v l : RC cl v (D l) -> forall calls r, r_end r <= lenN l ->
    m_iter c E v r calls = Ret (q_run (left_of l r) calls).
  Proof.
    intros H. induction calls as [|ca calls IH]; intros r Hr; [reflexivity|].
    destruct ca as [| |n| |]; cbn [m_iter q_run].
    - destruct (iter_next_ok H Hr) as [r' [-> [G1 G2]]]. cbn [obind]. rewrite (IH _ G2), G1. reflexivity.
    - destruct (iter_next_back_ok H Hr) as [r' [-> [G1 G2]]]. cbn [obind]. rewrite (IH _ G2), G1. reflexivity.
    - destruct (iter_nth_ok n H Hr) as [r' [-> [G1 G2]]]. cbn [obind]. rewrite (IH _ G2), G1. reflexivity.
    - cbn [obind]. rewrite (IH _ Hr). cbn [obind]. unfold iter_size_hint. rewrite (left_len Hr). reflexivity.
    - cbn [obind]. rewrite IH by (cbn; exact Hr). cbn [obind]. rewrite left_empty with (r := mkRange _ _) by (cbn; lia).
      unfold iter_count, iter_size_hint. rewrite (left_len Hr). reflexivity.
  Qed.
  Lemma left_all cl v l : RC cl v (D l) -> left_of l (into_iter v) = l /\ r_end (into_iter v) <= lenN l.
  Proof.
    intros H. unfold into_iter, left_of, len; cbn [r_start r_end]. rewrite (rc_num H), lenN_map, N.sub_0_r. cbn [N.to_nat skipn].
    rewrite lenN_to_nat, firstn_all. split; [reflexivity|lia].
  Qed.
  Lemma to_vec_lawful cl v l : RC cl v (D l) -> to_vec c E v = Ret l.
  Proof.
    intros H. rewrite (RC_to_vec Hc Hcomp Hd H). clear H. induction l as [|x l IH]; [reflexivity|].
    cbn [map omap]. rewrite IH. unfold from_discr. rewrite Hfd. reflexivity.
  Qed.

  Lemma disc_inj x y : to_d E x = to_d E y -> x = y.
  Proof. intros H. assert (Some x = Some y) by (rewrite <- !Hfd, H; reflexivity). congruence. Qed.
  Lemma map_inj l1 : forall l2, D l1 = D l2 -> l1 = l2.
  Proof.
    induction l1 as [|x l1 IH]; intros [|y l2] H; cbn in H; try discriminate; [reflexivity|].
    injection H as H1 H2. apply disc_inj in H1. rewrite (IH _ H2). congruence.
  Qed.
  Lemma l_eqb_spec l1 : forall l2, l_eqb (to_d E) l1 l2 = true <-> D l1 = D l2.
  Proof.
    induction l1 as [|x l1 IH]; intros [|y l2]; cbn; try (split; [discriminate|discriminate]); [split; reflexivity|].
    rewrite andb_true_iff, IH, N.eqb_eq. split; [intros [-> ->]; reflexivity|intros H; injection H; auto].
  Qed.

  Lemma build_ok A (m : M ev A) (Q : ev -> Prop) F :
    okr (fun _ v => Q v) F (m (ev_new c)) -> ook Q (fun k => exists v, F k v) (build c m).
  Proof. unfold build. destruct (m (ev_new c)) as [[a|k| |] v]; cbn; eauto. Qed.

  (** the simulation *)
  Definition PR (p : list ev) (sp : list (list T)) (cl : list bool) : Prop :=
    length p = length sp /\ length p = length cl /\
    forall r v l b, nth_error p r = Some v -> nth_error sp r = Some l -> nth_error cl r = Some b -> RC b v (D l).

  Lemma PR_nil : PR [] [] [].
  Proof. split; [reflexivity|split; [reflexivity|]]. intros [|r] v l b H; discriminate. Qed.
  Lemma PR_upd p sp cl r v l b : PR p sp cl -> RC b v (D l) -> PR (upd p r v) (upd sp r l) (upd cl r b).
  Proof.
    intros [H1 [H2 H3]] H. unfold PR. rewrite !upd_length. split; [exact H1|split; [exact H2|]].
    intros r' v' l' b'. rewrite !nth_error_upd. destruct (Nat.eqb_spec r r') as [->|Hne].
    - rewrite <- H1, <- H2. destruct (Nat.ltb r' (length p)); [|discriminate]. intros G1 G2 G3. congruence.
    - apply H3.
  Qed.
  Lemma PR_upd_same p sp cl r v l b : PR p sp cl -> nth_error cl r = Some b -> RC b v (D l) -> PR (upd p r v) (upd sp r l) cl.
  Proof. intros H Hb G. rewrite <- (nth_error_upd_same Hb). apply PR_upd; assumption. Qed.
  Lemma PR_app p sp cl v l b : PR p sp cl -> RC b v (D l) -> PR (p ++ [v]) (sp ++ [l]) (cl ++ [b]).
  Proof.
    intros [H1 [H2 H3]] H. unfold PR. rewrite !app_length; cbn. split; [lia|split; [lia|]].
    intros r v' l' b' G1 G2 G3.
    assert (Hr : (r < length p)%nat \/ r = length p).
    { assert (r < length (p ++ [v]))%nat by (apply nth_error_Some; congruence). rewrite app_length in *; cbn in *. lia. }
    destruct Hr as [Hr|Hr].
    - rewrite nth_error_app1 in G1, G2, G3 by lia. eapply H3; eassumption.
    - rewrite nth_error_app2 in G1, G2, G3 by lia. subst r.
      replace (length p - length sp)%nat with O in G2 by lia. replace (length p - length cl)%nat with O in G3 by lia.
      rewrite Nat.sub_diag in G1. cbn in G1, G2, G3. congruence.
  Qed.

  (** one step: same result and related pools, or a resource failure *)
  Definition sim (r : mout T * list ev) (s : res T * list (list T)) (cl : list bool) : Prop :=
    (fst r = MRes (fst s) /\ PR (snd r) (snd s) cl) \/ fst r = MCap \/ fst r = MAbort.

  Lemma sim_on A p sp cl r (m : M ev A) k f cl' : PR p sp cl ->
    (forall v l b, nth_error p r = Some v -> nth_error sp r = Some l -> nth_error cl r = Some b -> RC b v (D l) ->
       exists b', cl' = upd cl r b' /\
       okr (fun a v' => k a = fst (f l) /\ RC b' v' (D (snd (f l))))
           (fun q v' => cap_panic q \/ (RPanic = fst (f l) /\ RC b' v' (D (snd (f l))))) (m v)) ->
    (nth_error p r = None -> cl' = cl) ->
    sim (m_on p r m k) (s_on sp r f) cl'.
  Proof.
    intros H Hm Hn. destruct H as [H1 [H2 H3]]. unfold sim, m_on, s_on.
    destruct (nth_error p r) as [v|] eqn:Hp.
    - destruct (nth_error_same_len H1 Hp) as [l Hl]. destruct (nth_error_same_len H2 Hp) as [b Hb].
      destruct (Hm v l b eq_refl Hl Hb (H3 _ _ _ _ Hp Hl Hb)) as [b' [-> Hok]]. rewrite Hl.
      destruct (m v) as [[a|q| |] v']; cbn in Hok; destruct (f l) as [x l'] eqn:Hf; cbn in *.
      + left. destruct Hok as [-> Hok]. split; [reflexivity|]. apply PR_upd; [split; auto|exact Hok].
      + destruct Hok as [[-> | ->]|[<- Hok]]; cbn; auto.
        destruct q; cbn; auto; left; (split; [reflexivity|apply PR_upd; [split; auto|exact Hok]]).
      + auto.
      + contradiction.
    - rewrite (nth_error_none_len H1 Hp). left. cbn. split; [reflexivity|]. rewrite Hn by reflexivity. split; auto.
  Qed.
  (** the common case: the flag does not change *)
  Lemma sim_on_same A p sp cl r (m : M ev A) k f : PR p sp cl ->
    (forall v l b, nth_error p r = Some v -> nth_error sp r = Some l -> nth_error cl r = Some b -> RC b v (D l) ->
       okr (fun a v' => k a = fst (f l) /\ RC b v' (D (snd (f l))))
           (fun q v' => cap_panic q \/ (RPanic = fst (f l) /\ RC b v' (D (snd (f l))))) (m v)) ->
    sim (m_on p r m k) (s_on sp r f) cl.
  Proof.
    intros H Hm. apply sim_on with (cl := cl); [exact H| |reflexivity].
    intros v l b Hp Hl Hb HR. exists b. split; [symmetry; apply nth_error_upd_same; exact Hb|]. apply Hm; assumption.
  Qed.
  Lemma sim_read A p sp cl r (g : ev -> outcome A) k (f : list T -> res T) : PR p sp cl ->
    (forall v l b, RC b v (D l) -> exists a, g v = Ret a /\ k a = f l) ->
    sim (m_read p r g k) (s_on sp r (fun l => (f l, l))) cl.
  Proof.
    intros H Hg. destruct H as [H1 [H2 H3]]. unfold sim, m_read, s_on.
    destruct (nth_error p r) as [v|] eqn:Hp.
    - destruct (nth_error_same_len H1 Hp) as [l Hl]. destruct (nth_error_same_len H2 Hp) as [b Hb].
      destruct (Hg v l b (H3 _ _ _ _ Hp Hl Hb)) as [a [-> Hk]]. rewrite Hl. cbn.
      left. split; [congruence|]. rewrite (nth_error_upd_same Hl). split; auto.
    - rewrite (nth_error_none_len H1 Hp). left. cbn. split; [reflexivity|split; auto].
  Qed.
  Lemma sim_new p sp cl (o : outcome ev) l b : PR p sp cl ->
    ook (fun v => RC b v (D l)) cap_panic o ->
    sim (m_new p o) (RUnit, sp ++ [l]) (cl ++ [b]).
  Proof.
    intros H Ho. unfold sim, m_new. destruct o as [v|k| |]; cbn in Ho; cbn.
    - left. split; [reflexivity|]. apply PR_app; assumption.
    - destruct Ho as [-> | ->]; cbn; auto.
    - auto.
    - contradiction.
  Qed.


  Lemma extend_honest cl v ds it : RC cl v ds -> honest c E it = true ->
    okr (fun _ v' => ends_in_panic it = false /\ RC cl v' (ds ++ D (items it)))
        (fun q v' => cap_panic q \/ (ends_in_panic it = true /\ RC cl v' (ds ++ D (items it)))) (extend c E it v).
  Proof.
    intros H Hh. unfold honest in Hh. apply andb_true_iff in Hh. destruct Hh as [Ha Hl]. apply N.leb_le in Hl.
    destruct (N.le_gt_cases (lenN ds + lower it) (usize_max c)) as [Hle|Hgt].
    - eapply okr_mono; [apply (RC_extend Hc Hcomp Hd H Hle (amount_fits H Ha))|..].
      + intros u v' [G1 [_ G2]]. auto.
      + intros k v' [[G _]|[[_ [G1 [_ G2]]]|[_ [G1 _]]]].
        * left; exact G.
        * auto.
        * lia.
    - rewrite (RC_extend_overflow Hc Hcomp Hd H Hgt). cbn. left; right; reflexivity.
  Qed.

  Lemma insert_D l i x : D (l_insert l i x) = insertN (D l) i (to_d E x).
  Proof. unfold l_insert, insertN. rewrite !map_app, firstn_map, skipn_map. reflexivity. Qed.
  Lemma remove_D l i : D (l_remove l i) = removeN (D l) i.
  Proof.
    unfold l_remove, removeN. rewrite map_app, firstn_map, skipn_map.
    replace (N.to_nat i + 1)%nat with (S (N.to_nat i)) by lia. reflexivity.
  Qed.

  Theorem step_sim p sp cl o : PR p sp cl -> ok_op c E sp cl o = true ->
    sim (m_step c E p o) (s_step (to_d E) sp o) (cl_step c E sp cl o).
  Proof.
    intros H Hok. pose proof (proj1 H) as HL1. pose proof (proj1 (proj2 H)) as HL2.
    destruct o as [|n|x n|l0|it|r|r x|r|r i x|r i|r a b0|r i|r n|r|r n x|r i|r i x|r k|r|r it|r r2|r at_|r f|r f|r x|r x|r r2|r|r|r calls|r|r];
      cbn [m_step s_step cl_step ok_op] in *.
    - (* new *) apply sim_new; [exact H|]. apply (RC_new Hc Hcomp Hd).
    - (* with_capacity *) apply sim_new; [exact H|].
      eapply ook_mono; [apply (RC_with_capacity Hc Hcomp Hd (n := n))|..].
      + unfold usz in Hok. lia.
      + intros v [G _]. exact G.
      + intros k ->. left; reflexivity.
    - (* from_elem *) apply sim_new; [exact H|]. unfold from_elem.
      eapply ook_mono; [apply build_ok; apply (RC_extend_with_value Hc Hcomp Hd x Hai (RC_new Hc Hcomp Hd) (count := n))|..].
      + unfold usz in Hok. apply N.leb_le in Hok. exact Hok.
      + intros v G. cbn [app andb] in G. rewrite map_repeat. apply RC_or. exact G.
      + intros k [v [G _]]. exact G.
    - (* from_slice *) apply sim_new; [exact H|]. unfold from_slice.
      pose proof (RC_new Hc Hcomp Hd) as H0.
      eapply ook_mono; [apply build_ok; apply (RC_extend_exact Hc Hcomp Hd (l := l0) H0)|..].
      + apply (amount_fits H0 Hok).
      + intros v G. exact G.
      + intros k [v [G _]]. exact G.
    - (* from_iter *) unfold from_iter. pose proof (extend_honest (RC_new Hc Hcomp Hd) Hok) as G.
      apply build_ok in G. unfold sim, m_new. destruct (build c (extend c E it)) as [v|k| |]; cbn in G.
      + destruct G as [-> G]. cbn. left. split; [reflexivity|]. apply PR_app; assumption.
      + destruct G as [v [[-> | ->]|[-> G]]]; cbn; auto.
        destruct k; cbn; auto; left; (split; [reflexivity|exact H]).
      + cbn; auto.
      + contradiction.
    - (* clone *) destruct (nth_error p r) as [v|] eqn:Hp.
      + destruct (nth_error_same_len HL1 Hp) as [l Hl]. destruct (nth_error_same_len HL2 Hp) as [b Hb]. rewrite Hl, Hb.
        apply sim_new; [exact H|].
        eapply ook_mono; [apply (RC_clone Hc Hcomp Hd (proj2 (proj2 H) _ _ _ _ Hp Hl Hb))|..].
        * auto.
        * intros k ->. left; reflexivity.
      + rewrite (nth_error_none_len HL1 Hp), (nth_error_none_len HL2 Hp). left. auto.
    - (* push *) apply sim_on_same; [exact H|]. intros v l b _ _ _ HR. cbn [fst snd].
      eapply okr_mono; [apply (RC_push Hc Hcomp Hd x HR)|..].
      + intros u v' G. cbv beta in G. rewrite map_app. auto.
      + intros k v' [[-> _]|[-> _]]; left; [left|right]; reflexivity.
    - (* pop *) apply sim_on_same; [exact H|]. intros v l b _ _ _ HR.
      destruct (snoc_cases l) as [->|[l' [x ->]]].
      + rewrite (RC_pop_nil Hc Hcomp Hd HR). cbn. auto.
      + rewrite l_pop_snoc. cbn [fst snd]. rewrite map_app in HR.
        eapply okr_mono; [apply (RC_pop_snoc Hc Hcomp Hd HR)|..].
        * intros o v' [G [y [Hy ->]]]. rewrite Hfd in Hy. injection Hy as <-. auto.
        * intros k v' [_ [_ G]]. rewrite Hfd in G. discriminate.
    - (* insert *) apply andb_true_iff in Hok. destruct Hok as [Hok Hcn]. apply andb_true_iff in Hok. destruct Hok as [HB Hi].
      apply sim_on with (cl := cl); [exact H| |].
      + intros v l b Hp Hl Hb HR. exists (divides c E). split; [reflexivity|].
        rewrite (reg_nth _ Hl) in Hi. rewrite Hi. cbn [fst snd].
        eapply okr_mono; [apply (RC_insert Hc Hcomp Hd (index := i) x (countable_fixable Hcn) (ltac:(lia)) HR)|..].
        * rewrite lenN_map. lia.
        * intros u v' G. cbv beta in G. split; [reflexivity|]. rewrite insert_D. apply (RC_or G).
        * intros k v' [[-> _]|[-> _]]; left; [left|right]; reflexivity.
      + intros Hp. apply upd_none. rewrite <- HL2. apply nth_error_None. exact Hp.
    - (* remove *) apply sim_on_same; [exact H|]. intros v l b Hp Hl Hb HR.
      rewrite (reg_nth _ Hl), (reg_nth _ Hb) in Hok. rewrite <- get_D.
      destruct (nthN l i) as [x|] eqn:Hx.
      + cbn [fst snd]. eapply okr_mono; [apply (fun K => RC_remove Hc Hcomp Hd (index := i) (d := to_d E x) (x := x) K HR)|..].
        * apply countable_fixable. pose proof (nthN_Some_lt Hx). destruct (N.leb_spec (lenN l) i); [lia|]. cbn [orb] in Hok.
          apply andb_true_iff in Hok. exact (proj2 Hok).
        * rewrite nthN_map, Hx. reflexivity.
        * apply Hfd.
        * pose proof (nthN_Some_lt Hx). unfold remove_local. rewrite lenN_map.
          unfold local_remove in Hok. destruct (N.leb_spec (lenN l) i); [lia|]. cbn [orb] in Hok.
          apply andb_true_iff in Hok. destruct Hok as [Hok _]. apply orb_true_iff in Hok. destruct Hok as [Hok|Hok]; [left|right]; [|lia].
          apply andb_true_iff in Hok. destruct Hok as [G1 G2]. split; [lia|exact G2].
        * intros y v' [-> G]. split; [reflexivity|]. rewrite remove_D. exact G.
        * intros k v' [].
      + cbn [fst snd]. rewrite (remove_oob Hc Hcomp Hd (index := i) HR).
        * cbn. auto.
        * rewrite lenN_map. destruct (N.le_gt_cases (lenN l) i) as [|Hlt]; [assumption|].
          destruct (nthN_lt_Some Hlt) as [y Hy]. congruence.
    - (* swap *) apply sim_on_same; [exact H|]. intros v l b _ _ _ HR. unfold l_swap. rewrite <- (get_D l a), <- (get_D l b0).
      destruct (N.ltb_spec a (lenN l)) as [Ha|Ha]; [destruct (N.ltb_spec b0 (lenN l)) as [Hb0|Hb0]|]; cbn [andb fst snd].
      + destruct (nthN_lt_Some Ha) as [x Hx]. destruct (nthN_lt_Some Hb0) as [y Hy]. rewrite Hx, Hy.
        eapply okr_mono; [apply (RC_swap Hc Hcomp Hd (ia := a) (ib := b0) (a := to_d E x) (b := to_d E y) HR)|..].
        * rewrite nthN_map, Hx. reflexivity.
        * rewrite nthN_map, Hy. reflexivity.
        * intros u v' G. cbv beta in G. rewrite !l_set_updN, !map_updN. auto.
        * intros k v' [].
      + rewrite (RC_swap_oob Hc Hcomp Hd (ia := a) (ib := b0) HR) by (rewrite lenN_map; auto). cbn. auto.
      + rewrite (RC_swap_oob Hc Hcomp Hd (ia := a) (ib := b0) HR) by (rewrite lenN_map; auto). cbn. auto.
    - (* swap_remove *) apply sim_on_same; [exact H|]. intros v l b _ _ _ HR. rewrite <- get_D.
      destruct (nthN l i) as [x|] eqn:Hx.
      + destruct (snoc_cases l) as [->|[l' [y ->]]]; [apply nthN_Some_lt in Hx; cbn in Hx; lia|].
        unfold l_swap_remove. rewrite l_pop_snoc. cbn [fst snd].
        assert (Hx2 : nthN (D l' ++ [to_d E y]) i = Some (to_d E x)).
        { change [to_d E y] with (D [y]). rewrite <- map_app, nthN_map, Hx. reflexivity. }
        rewrite map_app in HR. cbn [map] in HR.
        eapply okr_mono; [apply (RC_swap_remove Hc Hcomp Hd HR Hx2)|..].
        * intros z v' [G1 G2]. rewrite Hfd in G1. injection G1 as <-. split; [reflexivity|].
          rewrite lenN_map in G2. destruct (i =? lenN l'); [exact G2|]. rewrite l_set_updN, map_updN. exact G2.
        * intros k v' [_ [G _]]. rewrite Hfd in G. discriminate.
      + cbn [fst snd]. destruct (RC_swap_remove_oob Hc Hcomp Hd (index := i) HR) as [k [-> _]].
        * rewrite lenN_map. destruct (N.le_gt_cases (lenN l) i) as [|Hlt]; [assumption|].
          destruct (nthN_lt_Some Hlt) as [y Hy]. congruence.
        * cbn. auto.
    - (* truncate *) apply sim_on_same; [exact H|]. intros v l b _ _ _ HR. cbn [fst snd].
      eapply okr_mono; [apply (RC_truncate Hc Hcomp Hd n HR)|..].
      + intros u v' [G _]. unfold l_truncate. rewrite <- firstn_map. auto.
      + intros k v' [].
    - (* clear *) apply sim_on_same; [exact H|]. intros v l b _ _ _ HR. cbn [fst snd].
      eapply okr_mono; [apply (RC_truncate Hc Hcomp Hd 0 HR)|..].
      + intros u v' [G _]. auto.
      + intros k v' [].
    - (* resize *) apply sim_on with (cl := cl); [exact H| |].
      + intros v l b Hp Hl Hb HR. eexists. split; [reflexivity|]. rewrite (reg_nth _ Hl), (reg_nth _ Hb). cbn [fst snd].
        eapply okr_mono; [apply (RC_resize Hc Hcomp Hd (n := n) x Hai HR)|..].
        * unfold usz in Hok. lia.
        * intros u v' G. cbv beta in G. split; [reflexivity|]. rewrite lenN_map in G. unfold l_resize.
          apply RC_or in G. destruct (lenN l <? n); [rewrite map_app, map_repeat|rewrite <- firstn_map]; exact G.
        * intros k v' [G _]. left; exact G.
      + intros Hp. apply upd_none. rewrite <- HL2. apply nth_error_None. exact Hp.
    - (* get *) apply sim_read; [exact H|]. intros v l b HR. rewrite (RC_get_lawful Hc Hcomp Hd Hfd _ HR). eauto.
    - (* set *) apply sim_on_same; [exact H|]. intros v l b _ _ _ HR.
      destruct (N.ltb_spec i (lenN l)) as [Hi|Hi]; cbn [fst snd].
      + eapply okr_mono; [apply (RC_set_lawful Hc Hcomp Hd Hfd x HR Hi)|..].
        * intros u v' G. cbv beta in G. rewrite l_set_updN. auto.
        * intros k v' [].
      + unfold set. rewrite (RC_set_raw_oob Hc Hcomp Hd (i := i) _ HR) by (rewrite lenN_map; exact Hi). cbn. auto.
    - (* reserve *) apply sim_on_same; [exact H|]. intros v l b _ _ _ HR. cbn [fst snd].
      destruct (N.le_gt_cases (lenN (D l) + k) (usize_max c)) as [Hle|Hgt].
      + eapply okr_mono; [apply (RC_reserve Hc Hcomp Hd HR Hle (amount_fits HR Hok))|..].
        * intros u v' [G _]. auto.
        * intros q v' [-> _]. left; left; reflexivity.
      + rewrite (RC_reserve_overflow Hc Hcomp Hd HR Hgt). cbn. left; right; reflexivity.
    - (* shrink *) apply sim_on_same; [exact H|]. intros v l b _ Hl _ HR. cbn [fst snd]. rewrite (reg_nth _ Hl) in Hok.
      apply countable_fixable in Hok. rewrite <- (lenN_map (to_d E)) in Hok.
      eapply okr_mono; [apply (RC_shrink_to_fit Hc Hcomp Hd Hok HR)|..].
      + intros u v' [G _]. auto.
      + intros k v' [].
    - (* extend *) apply sim_on_same; [exact H|]. intros v l b _ _ _ HR. cbn [fst snd].
      eapply okr_mono; [apply (extend_honest HR Hok)|..].
      + intros u v' [-> G]. rewrite map_app. auto.
      + intros k v' [G|[-> G]]; [auto|]. rewrite map_app. auto.
    - (* append *) destruct (nth_error p r) as [v|] eqn:Hp; [destruct (nth_error p r2) as [w|] eqn:Hp2|].
      + destruct (nth_error_same_len HL1 Hp) as [l Hl]. destruct (nth_error_same_len HL2 Hp) as [b Hb].
        destruct (nth_error_same_len HL1 Hp2) as [l2 Hl2]. destruct (nth_error_same_len HL2 Hp2) as [b2 Hb2].
        rewrite Hl, Hl2. rewrite (reg_nth _ Hl), (reg_nth _ Hl2) in Hok.
        rewrite (reg_nth _ Hl), (reg_nth _ Hb), (reg_nth _ Hb2).
        assert (Hlt2 : (r2 < length cl)%nat) by (apply nth_error_Some; congruence).
        rewrite (proj2 (Nat.ltb_lt _ _) Hlt2). cbn [andb].
        destruct (Nat.eqb_spec r r2) as [->|Hne]; cbn [negb andb].
        { left. auto. }
        pose proof (proj2 (proj2 H) _ _ _ _ Hp Hl Hb) as HR. pose proof (proj2 (proj2 H) _ _ _ _ Hp2 Hl2 Hb2) as HR2.
        assert (Hgen : forall v' w' b', RC b' v' (D (l ++ l2)) -> RC b2 w' (D []) ->
                  PR (upd (upd p r v') r2 w') (upd (upd sp r (l ++ l2)) r2 []) (upd cl r b')).
        { intros v' w' b' G1 G2. apply PR_upd_same with (b := b2); [apply PR_upd; assumption| |exact G2].
          rewrite nth_error_upd. destruct (Nat.eqb_spec r r2); [contradiction|exact Hb2]. }
        unfold sim. destruct (N.eqb_spec (lenN l mod P) 0) as [Hm|Hm].
        * cbn [negb orb] in Hok. apply andb_true_iff in Hok. destruct Hok as [Hok Hsum]. apply andb_true_iff in Hok. destruct Hok as [Hok Hcn].
          pose proof (RC_append_fast Hc Hcomp Hd HR HR2) as G. rewrite !lenN_map in G.
          specialize (G Hm (countable_fixable Hcn) (summable_fits Hsum)).
          destruct (append c E (v, w)) as [[u|k| |] [v' w']]; cbn [fst snd of_outcome] in G |- *; cbn in G.
          -- left. split; [reflexivity|]. destruct G as [G1 G2]. rewrite <- map_app in G1. apply Hgen; [exact G1|].
             destruct (small c); [exact G2|]. cbn [orb negb] in Hok. apply N.eqb_eq in Hok.
             destruct G2 as [K1 [K2 K3]]. rewrite (lenN_nil_inv Hok) in *. cbn in K1.
             assert (Hw' : w' = mkEv (mkRvec (firstn (N.to_nat 0) (data (storage w))) (vcap (storage w))) (num w)).
             { destruct w' as [[da ca] nu]. cbn in *. rewrite (rc_num HR2). cbn. congruence. }
             rewrite Hw'. apply (RC_firstn Hc Hcomp Hd HR2). cbn. lia.
          -- destruct G as [-> _]. cbn. auto.
          -- auto.
          -- contradiction.
        * pose proof (RC_append_slow Hc Hcomp Hd HR HR2) as G. rewrite lenN_map in G. specialize (G Hm).
          destruct (append c E (v, w)) as [[u|k| |] [v' w']]; cbn [fst snd of_outcome] in G |- *; cbn in G.
          -- left. split; [reflexivity|]. destruct G as [G1 [G2 _]]. rewrite <- map_app in G1.
             rewrite <- (nth_error_upd_same Hb). apply Hgen; assumption.
          -- destruct G as [[-> | ->] _]; cbn; auto.
          -- auto.
          -- contradiction.
      + destruct (nth_error_same_len HL1 Hp) as [l Hl]. rewrite Hl, (nth_error_none_len HL1 Hp2).
        left. cbn [fst snd]. split; [reflexivity|]. apply nth_error_None in Hp2.
        rewrite (proj2 (Nat.ltb_ge r2 (length cl))) by lia. exact H.
      + rewrite (nth_error_none_len HL1 Hp). left. cbn [fst snd]. split; [reflexivity|].
        rewrite (upd_none (l := cl)) by (apply nth_error_None in Hp; lia). match goal with |- PR _ _ (if ?b then _ else _) => destruct b end; exact H.
    - (* split_off *) destruct (nth_error p r) as [v|] eqn:Hp.
      + destruct (nth_error_same_len HL1 Hp) as [l Hl]. destruct (nth_error_same_len HL2 Hp) as [b Hb]. rewrite Hl.
        rewrite (reg_nth _ Hl) in Hok. apply N.leb_le in Hok.
        pose proof (proj2 (proj2 H) _ _ _ _ Hp Hl Hb) as HR.
        assert (Hlen : len v = lenN l) by (unfold len; rewrite (rc_num HR), lenN_map; reflexivity).
        unfold split_off. rewrite Hlen.
        destruct (N.leb_spec at_ (lenN l)) as [Hle|Hgt].
        * assert (at_ = lenN l) by lia. subst at_.
          unfold bind at 1, reads at 1. rewrite Hlen, (usub_ok Hc Hcomp) by lia. rewrite N.sub_diag.
          unfold bind at 1, lift at 1.
          pose proof (RC_with_capacity Hc Hcomp Hd (n := 0) (N.le_0_l _)) as G.
          destruct (with_capacity c E 0) as [w|k| |]; cbn in G.
          -- destruct G as [G _]. cbn. left. split; [reflexivity|]. cbn [snd].
             rewrite lenN_to_nat, firstn_all, skipn_all. apply PR_app.
             ++ apply PR_upd_same with (b := b); [exact H|exact Hb|].
                pose proof (RC_set_len_le Hc Hcomp Hd (n := lenN (D l)) HR (N.le_refl _)) as K.
                rewrite firstn_lenN, lenN_map in K by lia. exact K.
             ++ pose proof (RC_set_len_le Hc Hcomp Hd (n := 0) G (N.le_refl _)) as K. exact K.
          -- subst k. cbn. right; left; reflexivity.
          -- right; right; reflexivity.
          -- contradiction.
        * cbn. left. split; [reflexivity|]. cbn [snd]. rewrite (nth_error_upd_same Hp). exact H.
      + rewrite (nth_error_none_len HL1 Hp). left. auto.
    - (* retain *) apply sim_on_same; [exact H|]. intros v l b _ _ _ HR.
      pose proof (RC_retain Hc Hcomp Hd Hfd (seen_pred f) [] HR) as G.
      destruct (l_retain (seen_pred f) [] l) as [K [seen|]]; (eapply okr_mono; [exact G|..]).
      + intros a v' [G1 G2]. injection G1 as <-. auto.
      + intros k v' [_ [G1 _]]. discriminate.
      + intros a v' [G1 _]. discriminate.
      + intros k v' [_ [_ G2]]. auto.
    - (* for_each *) apply sim_on_same; [exact H|]. intros v l b _ _ _ HR.
      pose proof (RC_for_each Hc Hcomp Hd Hfd (seen_map f) [] HR) as G.
      destruct (l_map (seen_map f) [] l) as [K [seen|]]; (eapply okr_mono; [exact G|..]).
      + intros a v' [G1 G2]. injection G1 as <-. auto.
      + intros k v' [_ [G1 _]]. discriminate.
      + intros a v' [G1 _]. discriminate.
      + intros k v' [_ [_ G2]]. auto.
    - (* any *) apply sim_read; [exact H|]. intros v l b HR. destruct (RC_any Hc Hcomp Hd x HR) as [a [-> Ha]].
      eexists; split; [reflexivity|]. f_equal. apply bool_eq. rewrite Ha, existsb_exists, in_map_iff. split.
      + intros [y [G1 G2]]. exists y. split; [exact G2|]. apply N.eqb_eq. exact G1.
      + intros [y [G1 G2]]. exists y. split; [|exact G1]. apply N.eqb_eq. exact G2.
    - (* all *) apply sim_read; [exact H|]. intros v l b HR. destruct (RC_all Hc Hcomp Hd x HR) as [a [-> Ha]].
      eexists; split; [reflexivity|]. f_equal. apply bool_eq. rewrite Ha, forallb_forall, Forall_map, Forall_forall.
      split; intros G y Hy; specialize (G y Hy); apply N.eqb_eq; exact G.
    - (* eq *) destruct (nth_error p r) as [v|] eqn:Hp; [destruct (nth_error p r2) as [w|] eqn:Hp2|].
      + destruct (nth_error_same_len HL1 Hp) as [l Hl]. destruct (nth_error_same_len HL2 Hp) as [b Hb].
        destruct (nth_error_same_len HL1 Hp2) as [l2 Hl2]. destruct (nth_error_same_len HL2 Hp2) as [b2 Hb2].
        rewrite Hl, Hl2.
        destruct (RC_eq Hc Hcomp Hd (proj2 (proj2 H) _ _ _ _ Hp Hl Hb) (proj2 (proj2 H) _ _ _ _ Hp2 Hl2 Hb2)) as [a [-> Ha]].
        left. cbn. split; [|exact H]. do 2 f_equal. apply bool_eq. rewrite Ha. symmetry. apply l_eqb_spec.
      + destruct (nth_error_same_len HL1 Hp) as [l Hl]. rewrite Hl, (nth_error_none_len HL1 Hp2). left. auto.
      + rewrite (nth_error_none_len HL1 Hp). left. auto.
    - (* hash *) apply sim_read; [exact H|]. intros v l b HR. rewrite (RC_hash Hc Hcomp Hd HR). eauto.
    - (* to_vec *) apply sim_read; [exact H|]. intros v l b HR. rewrite (to_vec_lawful HR). eauto.
    - (* iter *) apply sim_read; [exact H|]. intros v l b HR. destruct (left_all HR) as [G1 G2].
      rewrite (m_iter_ok HR calls G2), G1. eauto.
    - (* len *) apply sim_read; [exact H|]. intros v l b HR. eexists; split; [reflexivity|]. unfold len. rewrite (rc_num HR), lenN_map. reflexivity.
    - (* is_empty *) apply sim_read; [exact H|]. intros v l b HR. eexists; split; [reflexivity|]. unfold is_empty, len. rewrite (rc_num HR), lenN_map. reflexivity.
  Qed.

  Theorem run_sim prog : forall p sp cl, PR p sp cl -> ok_run c E sp cl prog = true ->
    agrees (fst (m_run c E p prog)) (fst (s_run (to_d E) sp prog)).
  Proof.
    induction prog as [|o prog IH]; intros p sp cl H Hok; cbn [m_run s_run ok_run] in *; [constructor|].
    apply andb_true_iff in Hok. destruct Hok as [Hok1 Hok2].
    pose proof (step_sim H Hok1) as Hs.
    destruct (m_step c E p o) as [r p']. destruct (s_step (to_d E) sp o) as [x sp']. cbn [snd] in Hok2.
    destruct Hs as [[G1 G2]|[G|G]]; cbn [fst snd] in *; subst r.
    - specialize (IH _ _ _ G2 Hok2). destruct (m_run c E p' prog) as [rs p'']. destruct (s_run (to_d E) sp' prog) as [xs sp''].
      cbn in *. constructor. exact IH.
    - destruct (m_run c E p' prog) as [rs p'']. cbn. constructor.
    - cbn. constructor.
  Qed.
  End Lawful.
End Pool.
