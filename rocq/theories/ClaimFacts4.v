(** ClaimFacts4.v -- consequences of ClaimFacts*.v in the form Prop*.v states them. *)
From Verif Require Export RefuteFacts.
From Coq Require Import ZifyBool ZifyNat ZifyN.
Open Scope N_scope.
Set Implicit Arguments.
Unset Strict Implicit.
Set Default Proof Using "Type*".

Section Lists.
  Context {T : Type}.
  Lemma l_get_Some_lt (l : list T) i x : l_get l i = Some x -> i < lenN l.
  Proof. unfold l_get, lenN. intros H. assert (N.to_nat i < length l)%nat; [|lia]. apply nth_error_Some. congruence. Qed.
  Lemma l_get_lt_Some (l : list T) i : i < lenN l -> exists x, l_get l i = Some x.
  Proof.
    unfold l_get, lenN. intros H. destruct (nth_error l (N.to_nat i)) as [x|] eqn:G; [exists x; reflexivity|].
    apply nth_error_None in G. lia.
  Qed.
  Lemma l_set_nat_length (l : list T) i x : length (l_set_nat l i x) = length l.
  Proof. revert i. induction l as [|y l IH]; intros [|i]; cbn; congruence. Qed.
  Lemma l_set_nat_get (l : list T) i x j : (i < length l)%nat ->
    nth_error (l_set_nat l i x) j = if Nat.eqb j i then Some x else nth_error l j.
  Proof.
    revert i j. induction l as [|y l IH]; intros [|i] [|j] H; cbn in *; try lia; try reflexivity. apply IH. lia.
  Qed.
  Lemma l_set_lenN (l : list T) i x : lenN (l_set l i x) = lenN l.
  Proof. unfold lenN, l_set. rewrite l_set_nat_length. reflexivity. Qed.
  Lemma l_set_get (l : list T) i x j : i < lenN l -> l_get (l_set l i x) j = if j =? i then Some x else l_get l j.
  Proof.
    unfold lenN, l_get, l_set. intros H. rewrite l_set_nat_get by lia.
    destruct (N.eqb_spec j i); destruct (Nat.eqb_spec (N.to_nat j) (N.to_nat i)); try lia; reflexivity.
  Qed.
  Lemma l_swap_get (l : list T) a b j : a < lenN l -> b < lenN l ->
    l_get (l_swap l a b) j = if j =? a then l_get l b else if j =? b then l_get l a else l_get l j.
  Proof.
    intros Ha Hb. unfold l_swap. destruct (l_get_lt_Some Ha) as [x Hx]. destruct (l_get_lt_Some Hb) as [y Hy]. rewrite Hx, Hy.
    rewrite l_set_get by (rewrite l_set_lenN; exact Hb). rewrite l_set_get by exact Ha.
    destruct (N.eqb_spec j b) as [Eb|Nb]; destruct (N.eqb_spec j a) as [Ea|Na]; try reflexivity.
    subst. rewrite Hx in Hy. injection Hy as ->. reflexivity.
  Qed.
  Lemma l_pop_snoc (l : list T) x : l_pop (l ++ [x]) = Some (x, l).
  Proof. unfold l_pop. rewrite rev_app_distr. cbn. rewrite rev_involutive. reflexivity. Qed.
  Lemma l_get_app1 (l m : list T) i : i < lenN l -> l_get (l ++ m) i = l_get l i.
  Proof. unfold l_get, lenN. intros H. apply nth_error_app1. lia. Qed.
  Lemma l_get_last (l : list T) x : l_get (l ++ [x]) (lenN l) = Some x.
  Proof. unfold l_get, lenN. rewrite Nat2N.id, nth_error_app2, Nat.sub_diag by lia. reflexivity. Qed.
  Lemma lenN_snoc (l : list T) x : lenN (l ++ [x]) = lenN l + 1.
  Proof. unfold lenN. rewrite app_length. cbn. lia. Qed.
  Lemma l_swap_remove_get (l : list T) i j : i < lenN l ->
    lenN (l_swap_remove l i) + 1 = lenN l /\
    (j < lenN l - 1 -> l_get (l_swap_remove l i) j = if j =? i then l_get l (lenN l - 1) else l_get l j).
  Proof.
    destruct (rev l) as [|x r] eqn:Hr.
    - intros H. apply (f_equal (@rev T)) in Hr. rewrite rev_involutive in Hr. subst l. unfold lenN in H. cbn in H. lia.
    - apply (f_equal (@rev T)) in Hr. rewrite rev_involutive in Hr. cbn in Hr. revert Hr. generalize (rev r) as m. intros m -> Hi.
      rewrite lenN_snoc in *. unfold l_swap_remove. rewrite l_pop_snoc.
      replace (lenN m + 1 - 1) with (lenN m) by lia. rewrite l_get_last.
      destruct (N.eqb_spec i (lenN m)) as [->|Hne].
      + split; [reflexivity|]. intros Hj. destruct (N.eqb_spec j (lenN m)); [lia|]. rewrite l_get_app1 by exact Hj. reflexivity.
      + rewrite l_set_lenN. split; [reflexivity|]. intros Hj. rewrite l_set_get by lia.
        destruct (N.eqb_spec j i); [reflexivity|]. rewrite l_get_app1 by exact Hj. reflexivity.
  Qed.

  (** *** iterators *)
  Lemma subseq_nil (l : list T) : subseq [] l.
  Proof. induction l; constructor; assumption. Qed.
  Lemma subseq_skips (m l k : list T) : subseq l k -> subseq l (m ++ k).
  Proof. intros H. induction m; cbn; [exact H|constructor; exact IHm]. Qed.
  Lemma q_run_nil (calls : list icall) :
    q_run (@nil T) calls = map (fun ca => match ca with ISizeHint | ICount => JNum 0 | _ => JItem None end) calls.
  Proof.
    induction calls as [|ca calls IH]; [reflexivity|]. destruct ca; cbn [q_run map]; cbn [q_next q_next_back l_pop rev fst snd].
    - rewrite IH. reflexivity.
    - rewrite IH. reflexivity.
    - unfold q_nth. change (lenN (@nil T)) with 0. replace (n <? 0) with false by lia. cbn [fst snd]. rewrite IH. reflexivity.
    - rewrite IH. reflexivity.
    - rewrite IH. reflexivity.
  Qed.
  Lemma fronts_nil (calls : list icall) : fronts calls (q_run (@nil T) calls) = [].
  Proof. rewrite q_run_nil. induction calls as [|ca calls IH]; [reflexivity|]. destruct ca; cbn; exact IH. Qed.
  Lemma backs_nil (calls : list icall) : backs calls (q_run (@nil T) calls) = [].
  Proof. rewrite q_run_nil. induction calls as [|ca calls IH]; [reflexivity|]. destruct ca; cbn; exact IH. Qed.
  Lemma q_run_protocol (l : list T) calls :
    exists F middle, l = F ++ middle ++ rev (backs calls (q_run l calls)) /\ subseq (fronts calls (q_run l calls)) F.
  Proof.
    revert l. induction calls as [|ca calls IH]; intros l.
    - exists [], l. cbn. rewrite app_nil_r. split; [reflexivity|constructor].
    - destruct ca as [| |n| |]; cbn [q_run].
      + destruct l as [|x l]; cbn [q_next fst snd fronts backs].
        * exists [], []. rewrite fronts_nil, backs_nil. split; [reflexivity|constructor].
        * destruct (IH l) as [F [mid [H1 H2]]]. exists (x :: F), mid. split; [cbn; f_equal; exact H1|constructor; exact H2].
      + unfold q_next_back. destruct (l_pop l) as [[x l']|] eqn:Hp; cbn [fst snd fronts backs].
        * assert (Hl : l = l' ++ [x]).
          { unfold l_pop in Hp. destruct (rev l) as [|y r] eqn:Hr; [discriminate|]. injection Hp as <- <-.
            rewrite <- (rev_involutive l), Hr. reflexivity. }
          destruct (IH l') as [F [mid [H1 H2]]]. exists F, mid. split; [|exact H2]. rewrite Hl. rewrite H1 at 1. cbn [rev].
          rewrite <- !app_assoc. reflexivity.
        * exists [], l. rewrite fronts_nil, backs_nil. cbn. rewrite app_nil_r. split; [reflexivity|constructor].
      + unfold q_nth. destruct (N.ltb_spec n (lenN l)) as [Hn|Hn].
        * destruct (skipn (N.to_nat n) l) as [|x l'] eqn:Hk; cbn [q_next fst snd fronts backs].
          -- exists [], l. rewrite fronts_nil, backs_nil. cbn. rewrite app_nil_r. split; [reflexivity|constructor].
          -- destruct (IH l') as [F [mid [H1 H2]]]. exists (firstn (N.to_nat n) l ++ x :: F), mid.
             split; [|apply subseq_skips; constructor; exact H2].
             rewrite <- (firstn_skipn (N.to_nat n) l) at 1. rewrite Hk. rewrite H1 at 1. rewrite <- app_assoc. reflexivity.
        * cbn [fst snd fronts backs]. exists l, []. rewrite fronts_nil, backs_nil. cbn. rewrite app_nil_r.
          split; [reflexivity|apply subseq_nil].
      + cbn [fronts backs]. apply IH.
      + cbn [fronts backs]. exists l, []. rewrite fronts_nil, backs_nil. cbn. rewrite app_nil_r. split; [reflexivity|apply subseq_nil].
  Qed.
  Lemma q_run_no_nth (l : list T) calls : (forall ca, In ca calls -> ca = INext \/ ca = INextBack \/ ca = ISizeHint) ->
    exists middle, l = fronts calls (q_run l calls) ++ middle ++ rev (backs calls (q_run l calls)).
  Proof.
    revert l. induction calls as [|ca calls IH]; intros l H.
    - exists l. cbn. rewrite app_nil_r. reflexivity.
    - assert (H' : forall ca, In ca calls -> ca = INext \/ ca = INextBack \/ ca = ISizeHint) by (intros; apply H; right; assumption).
      destruct (H ca (or_introl eq_refl)) as [->|[->| ->]]; cbn [q_run].
      + destruct l as [|x l]; cbn [q_next fst snd fronts backs].
        * exists []. rewrite fronts_nil, backs_nil. reflexivity.
        * destruct (IH l H') as [mid H1]. exists mid. cbn. f_equal. exact H1.
      + unfold q_next_back. destruct (l_pop l) as [[x l']|] eqn:Hp; cbn [fst snd fronts backs].
        * assert (Hl : l = l' ++ [x]).
          { unfold l_pop in Hp. destruct (rev l) as [|y r] eqn:Hr; [discriminate|]. injection Hp as <- <-.
            rewrite <- (rev_involutive l), Hr. reflexivity. }
          destruct (IH l' H') as [mid H1]. exists mid. rewrite Hl. rewrite H1 at 1. cbn [rev]. rewrite <- !app_assoc. reflexivity.
        * exists l. rewrite fronts_nil, backs_nil. cbn. rewrite app_nil_r. reflexivity.
      + cbn [fronts backs]. apply IH, H'.
  Qed.
  Lemma q_run_all (l : list T) : q_run l (repeat INext (length l + 1)) = map (fun x => JItem (Some x)) l ++ [JItem None].
  Proof. induction l as [|x l IH]; [reflexivity|]. cbn. f_equal. exact IH. Qed.

  (** *** closures *)
  Lemma l_retain_pure (g : T -> bool) l : l_retain (fun (_ : unit) x => Some (g x, tt)) tt l = (filter g l, Some tt).
  Proof. induction l as [|x l IH]; [reflexivity|]. cbn. rewrite IH. reflexivity. Qed.
  Lemma l_retain_calls (g : list T -> T -> bool) l : forall s, snd (l_retain (fun seen x => Some (g seen x, seen ++ [x])) s l) = Some (s ++ l).
  Proof.
    induction l as [|x l IH]; intros s; cbn; [rewrite app_nil_r; reflexivity|].
    specialize (IH (s ++ [x])). destruct (l_retain _ _ l) as [k r]. cbn in *. rewrite IH, <- app_assoc. reflexivity.
  Qed.
  Lemma l_map_pure (g : T -> T) l : l_map (fun (_ : unit) x => Some (g x, tt)) tt l = (map g l, Some tt).
  Proof. induction l as [|x l IH]; [reflexivity|]. cbn. rewrite IH. reflexivity. Qed.
End Lists.

Section Set1.
  Context {T : Type} {c : cfg} {E : enumlike T}.
  Hypothesis Hs : setting c E.

  Lemma set_frame v l i x : holds c E v l -> i < lenN l ->
    exists v', set c E i x v = (Ret tt, v') /\ len v' = len v /\
      get c E i v' = Ret (Some x) /\ (forall j, j <> i -> get c E j v' = get c E j v) /\
      holds c E v' (l_set l i x).
  Proof.
    intros H Hi. destruct (set_ok Hs x H Hi) as [v' [H1 [H2 _]]]. exists v'. split; [exact H1|].
    split; [rewrite (holds_len Hs H2), (holds_len Hs H); apply l_set_lenN|].
    split; [rewrite (get_ok Hs i H2), l_set_get, N.eqb_refl by exact Hi; reflexivity|].
    split; [|exact H2]. intros j Hj. rewrite (get_ok Hs j H2), (get_ok Hs j H), l_set_get by exact Hi.
    rewrite (proj2 (N.eqb_neq _ _) Hj). reflexivity.
  Qed.
  Lemma set_oob_get v l i x : holds c E v l -> lenN l <= i ->
    set c E i x v = (Panic PIndex, v) /\ get c E i v = Ret None.
  Proof.
    intros H Hi. split; [exact (set_oob Hs x H Hi)|]. rewrite (get_ok Hs i H).
    unfold l_get. rewrite (proj2 (nth_error_None _ _)); [reflexivity|]. unfold lenN in Hi. lia.
  Qed.
  Lemma push_len v l x : holds c E v l ->
    result (push c E x v)
      (fun _ v' => holds c E v' (l ++ [x]) /\ len v' = len v + 1)
      (grow_fails c E v l).
  Proof.
    intros H. pose proof (push_ok Hs x H) as G. destruct (push c E x v) as [[a|k| |] v']; cbn in *; try assumption.
    split; [exact G|]. rewrite (holds_len Hs G), (holds_len Hs H), lenN_snoc. reflexivity.
  Qed.
  Lemma pop_some v l x : holds c E v (l ++ [x]) -> exists v', pop c E v = (Ret (Some x), v') /\ holds c E v' l.
  Proof. intros H. destruct (pop_ok Hs H) as [v' [H1 [H2 _]]]. exists v'. auto. Qed.
  Lemma len_is_empty v l : holds c E v l -> len v = lenN l /\ (is_empty v = true <-> l = []).
  Proof.
    intros H. pose proof (holds_len Hs H) as HL. split; [exact HL|]. unfold is_empty. rewrite HL.
    rewrite N.eqb_eq. unfold lenN. destruct l; cbn; split; intros; (discriminate || reflexivity || lia).
  Qed.
  Lemma truncate_firstn v l n : holds c E v l -> exists v', truncate n v = (Ret tt, v') /\ holds c E v' (firstn (N.to_nat n) l).
  Proof. intros H. destruct (truncate_ok Hs n H) as [v' [H1 [H2 _]]]. exists v'. auto. Qed.
  Lemma clear_nil v l : holds c E v l -> exists v', clear v = (Ret tt, v') /\ holds c E v' [].
  Proof. intros H. destruct (clear_ok Hs H) as [v' [H1 [H2 _]]]. exists v'. auto. Qed.
  Lemma retain_pure (g : T -> bool) v l : holds c E v l ->
    exists v', retain c E (fun _ x => Some (g x, tt)) tt v = (Ret tt, v') /\ holds c E v' (filter g l).
  Proof.
    intros H. pose proof (retain_ok Hs (fun _ x => Some (g x, tt)) tt H) as G. rewrite l_retain_pure in G.
    destruct (retain c E _ tt v) as [[[]|k| |] v']; cbn in G; try contradiction.
    - destruct G as [K [HK G]]. injection HK as <-. exists v'. auto.
    - destruct G as [_ [K [HK _]]]. discriminate.
  Qed.
  Lemma retain_calls (g : list T -> T -> bool) v l : holds c E v l ->
    exists v', retain c E (fun seen x => Some (g seen x, seen ++ [x])) [] v = (Ret l, v').
  Proof.
    intros H. pose proof (retain_ok Hs (fun seen x => Some (g seen x, seen ++ [x])) [] H) as G.
    pose proof (l_retain_calls g l []) as Hc.
    destruct (retain c E _ [] v) as [[st|k| |] v']; cbn in G; try contradiction.
    - destruct G as [K [HK G]]. rewrite HK in Hc. cbn in Hc. injection Hc as ->. exists v'. reflexivity.
    - destruct G as [_ [K [HK _]]]. rewrite HK in Hc. discriminate.
  Qed.
  Lemma for_each_pure (g : T -> T) v l : holds c E v l ->
    exists v', for_each c E (fun _ x => Some (g x, tt)) tt v = (Ret tt, v') /\ holds c E v' (map g l).
  Proof.
    intros H. pose proof (for_each_ok Hs (fun _ x => Some (g x, tt)) tt H) as G. rewrite l_map_pure in G.
    destruct (for_each c E _ tt v) as [[[]|k| |] v']; cbn in G; try contradiction.
    - destruct G as [K [HK G]]. injection HK as <-. exists v'. auto.
    - destruct G as [_ [K [HK _]]]. discriminate.
  Qed.
  Lemma from_elem_len x n : n <= usize_max c ->
    builds (from_elem c E x n) (fun v => holds c E v (repeat x (N.to_nat n)) /\ len v = n) no_room.
  Proof.
    intros Hn. pose proof (from_elem_ok Hs x Hn) as G. destruct (from_elem c E x n) as [v|k| |]; cbn in *; try assumption.
    split; [exact G|]. rewrite (holds_len Hs G), lenN_repeat, N2Nat.id. reflexivity.
  Qed.
  Lemma round_trip xs : lenN xs <= usize_max c -> reservable c E 0 (lenN xs) ->
    builds (from_slice c E xs) (fun v => to_vec c E v = Ret xs) no_room.
  Proof.
    intros H1 H2. pose proof (from_slice_ok Hs H2 H1) as G. destruct (from_slice c E xs) as [v|k| |]; cbn in *; try assumption.
    exact (to_vec_ok Hs G).
  Qed.
  Lemma iter_in_order v l : holds c E v l ->
    m_iter c E v (into_iter v) (repeat INext (length l + 1)) = Ret (map (fun x => JItem (Some x)) l ++ [JItem None]).
  Proof. intros H. rewrite (iter_ok Hs _ H), q_run_all. reflexivity. Qed.
  Lemma eq_hash v w l m : holds c E v l -> holds c E w m -> eq c E v w = Ret true -> hash c E v = hash c E w.
  Proof.
    intros H1 H2 He. destruct (eq_ok Hs H1 H2) as [b [Hb [G _]]]. rewrite He in Hb. injection Hb as <-. specialize (G eq_refl). subst m.
    rewrite (hash_ok Hs H1), (hash_ok Hs H2). reflexivity.
  Qed.
  Lemma with_capacity_room n : n <= usize_max c ->
    builds (with_capacity c E n) (fun v => holds c E v [] /\ (roomy c \/ countable c E n -> n <= capacity c E v)) (fun k => k = PCapacity).
  Proof.
    intros Hn. pose proof (with_capacity_ok Hs Hn) as G. destruct (with_capacity c E n) as [v|k| |]; cbn in *; try assumption.
    destruct G as [G1 [G2 _]]. auto.
  Qed.
  Lemma shrink_exact v l : countable c E (lenN l) -> holds c E v l ->
    exists v', shrink_to_fit c E v = (Ret tt, v') /\ holds c E v' l /\
      vlen (storage v') = (lenN l + (EPB c E - 1)) / EPB c E /\
      vcap (storage v') = shrink c (vcap (storage v)) (vlen (storage v')).
  Proof. intros Hn H. destruct (shrink_ok Hs Hn H) as [v' [H1 [H2 [H3 [H4 _]]]]]. exists v'. auto. Qed.

  Lemma reserve_blocks v l k : holds c E v l -> reservable c E (lenN l) k ->
    result (reserve c E k v)
      (fun _ v' => holds c E v' l /\ lenN l + k < EPB c E * vlen (storage v') /\ lenN l + k <= usize_max c)
      (fun q v' => no_room q /\ v' = v).
  Proof.
    intros H Hr. apply (holds_RC Hs) in H.
    destruct (N.le_gt_cases (lenN l + k) (usize_max c)) as [Hle|Hgt].
    2:{ rewrite (RC_reserve_overflow (s_ok Hs) (s_comp Hs) (s_d Hs) H) by (rewrite lenN_map; exact Hgt). split; [right|]; reflexivity. }
    eapply okr_mono; [apply (RC_reserve (s_ok Hs) (s_comp Hs) (s_d Hs) (k := k) H); rewrite lenN_map; [exact Hle|exact Hr]|..]; cbv beta.
    - intros u v' [H1 [H2 H3]]. rewrite lenN_map in H3. split; [apply (holds_RC Hs); exact H1|].
      pose proof (Ppos (s_ok Hs) (s_comp Hs) (s_d Hs)) as HP. rewrite H3.
      pose proof (N.div_mod (lenN l + k) (EPB c E) ltac:(lia)). pose proof (N.mod_lt (lenN l + k) (EPB c E) ltac:(lia)). split; [nia|exact Hle].
    - intros q v' [-> ->]. split; [left|]; reflexivity.
  Qed.
  Lemma manual_push v l x : holds c E v l -> reservable c E (lenN l) 1 ->
    result ((reserve c E 1 ;;; set_raw_unchecked c E (lenN l) (to_d E x) ;;; set_len (lenN l + 1)) v)
      (fun _ v' => holds c E v' (l ++ [x]))
      (fun k v' => no_room k /\ v' = v).
  Proof.
    intros H Hr. unfold bind at 1. pose proof (reserve_blocks H Hr) as G.
    destruct (reserve c E 1 v) as [[[]|k| |] v1]; cbn [result] in G |- *; try assumption. destruct G as [G1 [G2 GU]].
    destruct (raw_write Hs (i := lenN l) (d := to_d E x) (proj1 G1)) as [v2 [E2 [V2 [L2 [S2 R2]]]]]; [lia|apply (s_d Hs)|].
    unfold bind. rewrite E2. destruct (set_len_raw Hs (n := lenN l + 1) V2) as [v3 [E3 [V3 R3]]]; [rewrite S2; lia|exact GU|].
    rewrite E3. cbn [result]. split; [exact V3|]. intros i. rewrite R3. destruct (N.ltb_spec i (lenN l + 1)) as [Hi|Hi].
    - rewrite R2 by lia. destruct (N.eqb_spec i (lenN l)) as [->|Hne].
      + rewrite l_get_last. reflexivity.
      + rewrite l_get_app1 by lia. pose proof (proj2 G1 i) as Q. unfold get_raw in Q. rewrite (holds_len Hs G1) in Q.
        destruct (N.leb_spec (lenN l) i); [lia|]. rewrite Q. reflexivity.
    - unfold l_get. rewrite (proj2 (nth_error_None _ _)); [reflexivity|]. rewrite app_length. unfold lenN in Hi. cbn. lia.
  Qed.
End Set1.

Lemma eq_with_stale : exists w, holds u32_debug (fin 5) w old_list /\ storage w <> storage (old_vec u32_debug) /\
  eq u32_debug (fin 5) w (old_vec u32_debug) = Ret true.
Proof.
  exists (after u32_debug (fin 5) [OFromSlice old_list]).
  split; [|split].
  - apply (holds_hash s_u32d_5); [apply validb_valid; vm_compute; reflexivity|vm_compute; reflexivity].
  - vm_compute. discriminate.
  - vm_compute. reflexivity.
Qed.
