(** OpFacts.v -- Hoare-style reasoning and the element-level specification of the
    basic operations, on "raw" lists of discriminants (each below 2^BITS). *)
From Verif Require Export EvFacts.
From Coq Require Import ZifyBool ZifyNat ZifyN.
Open Scope N_scope.
Set Implicit Arguments.
Unset Strict Implicit.
Set Default Proof Using "Type*".

(** [okr Q F r]: r is a normal return satisfying Q, a panic satisfying F, or an
    allocation abort; never UB. *)
Definition okr {S A} (Q : A -> S -> Prop) (F : panic -> S -> Prop) (r : outcome A * S) : Prop :=
  match r with
  | (Ret a, s) => Q a s
  | (Panic k, s) => F k s
  | (Abort, _) => True
  | (UB, _) => False
  end.

Definition never {S} : panic -> S -> Prop := fun _ _ => False.

Lemma okr_bind S A B (m : M S A) (f : A -> M S B) s Q F :
  okr (fun a s' => okr Q F (f a s')) F (m s) -> okr Q F (bind m f s).
Proof. unfold bind. destruct (m s) as [[a|k| |] s']; cbn; auto. Qed.
Lemma okr_mono S A (Q Q' : A -> S -> Prop) (F F' : panic -> S -> Prop) r :
  okr Q F r -> (forall a s, Q a s -> Q' a s) -> (forall k s, F k s -> F' k s) -> okr Q' F' r.
Proof. destruct r as [[a|k| |] s]; cbn; auto. Qed.
Lemma okr_lift S A B (o : outcome A) a (f : A -> M S B) s Q F :
  o = Ret a -> okr Q F (f a s) -> okr Q F (bind (lift o) f s).
Proof. intros -> H. exact H. Qed.
Lemma okr_reads S A B (g : S -> outcome A) a (f : A -> M S B) s Q F :
  g s = Ret a -> okr Q F (f a s) -> okr Q F (bind (reads g) f s).
Proof. intros H1 H2. unfold bind, reads. rewrite H1. exact H2. Qed.
Lemma okr_ret S A (a : A) s (Q : A -> S -> Prop) F : Q a s -> okr Q F (ret a s).
Proof. intros H; exact H. Qed.
Lemma okr_bind_mono S A B (m : M S A) (f : A -> M S B) s Q1 F1 Q F :
  okr Q1 F1 (m s) -> (forall a s', Q1 a s' -> okr Q F (f a s')) -> (forall k s', F1 k s' -> F k s') ->
  okr Q F (bind m f s).
Proof. intros H1 H2 H3. apply okr_bind. eapply okr_mono; [exact H1|exact H2|exact H3]. Qed.

(** "capacity overflow": raised by Vec, or by an expect in mod.rs *)
Definition cap_panic (k : panic) : Prop := k = PCapacity \/ k = PExpect.

(** More list lemmas *)
Lemma updN_app_r A (l1 l2 : list A) x y : updN (l1 ++ x :: l2) (lenN l1) y = l1 ++ y :: l2.
Proof.
  unfold updN, lenN. rewrite Nat2N.id. induction l1 as [|h t IH]; cbn; [reflexivity|]. rewrite IH. reflexivity.
Qed.
Lemma nthN_map A B (f : A -> B) l i : nthN (map f l) i = option_map f (nthN l i).
Proof. unfold nthN. apply nth_error_map. Qed.
Lemma lenN_map A B (f : A -> B) l : lenN (map f l) = lenN l.
Proof. unfold lenN. rewrite map_length. reflexivity. Qed.
Lemma nthN_middle A (l1 l2 : list A) x : nthN (l1 ++ x :: l2) (lenN l1) = Some x.
Proof. rewrite nthN_app_r by lia. rewrite N.sub_diag. reflexivity. Qed.
Lemma firstn_lenN A n (l : list A) : lenN l <= n -> firstn (N.to_nat n) l = l.
Proof. unfold lenN; intros H. apply firstn_all2. lia. Qed.
Lemma lenN_nil_inv A (l : list A) : lenN l = 0 -> l = [].
Proof. destruct l; [reflexivity|unfold lenN; cbn [length]; lia]. Qed.
Lemma lenN_cons_inv A (l : list A) n : lenN l = N.of_nat (S n) -> exists x l', l = x :: l' /\ lenN l' = N.of_nat n.
Proof. destruct l as [|x l']; unfold lenN; cbn [length]; [lia|]. intros H. exists x, l'. split; [reflexivity|lia]. Qed.
Lemma lenN_to_nat A (l : list A) : N.to_nat (lenN l) = length l.
Proof. unfold lenN. lia. Qed.
Lemma map_updN A B (f : A -> B) l i x : map f (updN l i x) = updN (map f l) i (f x).
Proof.
  unfold updN. generalize (N.to_nat i). induction l as [|h t IH]; intros [|n]; cbn; try rewrite IH; reflexivity.
Qed.
Lemma map_repeat A B (f : A -> B) x n : map f (repeat x n) = repeat (f x) n.
Proof. induction n; cbn; congruence. Qed.

Section RC.
  Context {T : Type} (c : cfg) (E : enumlike T).
  (** no unused high bit is set *)
  Definition clean (v : ev) : Prop := forall w, wastev c E v w = 0.
  (** v is well formed and its elements are the discriminants ds; if cl then also clean *)
  Record RC (cl : bool) (v : ev) (ds : list N) : Prop := {
    rc_wf : WF c E v;
    rc_num : num v = lenN ds;
    rc_slot : forall i d, nthN ds i = Some d -> slotv c E v i = d;
    rc_clean : cl = true -> clean v
  }.
End RC.

Section Ops.
  Context {T : Type} {c : cfg} {E : enumlike T}.
  Local Notation B := (BITS E).
  Local Notation P := (EPB c E).
  Local Notation WF := (WF c E).
  Local Notation slotv := (slotv c E).
  Local Notation RC := (RC c E).

  Hypothesis Hc : cfg_ok c.
  Hypothesis Hcomp : compiles c E = true.
  Hypothesis Hd : forall x, to_d E x < 2 ^ B.

  Lemma Ppos : 1 <= P.
  Proof. exact (EPB_pos Hc Hcomp). Qed.
  Lemma W8 : 8 <= W c.
  Proof. destruct (W_cases Hc Hcomp) as [H|[H|[H|[H|H]]]]; lia. Qed.

  Lemma RC_weaken cl v ds : RC cl v ds -> RC false v ds.
  Proof. intros [H1 H2 H3 H4]. constructor; try assumption. discriminate. Qed.
  Lemma RC_weaken_and cl cl' v ds : RC cl v ds -> RC (cl && cl') v ds.
  Proof. intros [H1 H2 H3 H4]. constructor; try assumption. intros Hx. apply H4. lia. Qed.
  Lemma div_clean v : W c mod B = 0 -> WF v -> clean c E v.
  Proof.
    intros Hm Hw w. unfold wastev. destruct (nthN _ _) as [b|] eqn:Hb; [|reflexivity].
    pose proof (Forall_nthN (wf_blocks Hw) Hb) as Hlt. cbv beta in Hlt.
    unfold waste. pose proof (W_split Hc Hcomp) as Hs. rewrite Hm, N.add_0_r in Hs. rewrite <- Hs.
    rewrite N.shiftr_div_pow2. apply N.div_small. exact Hlt.
  Qed.
  Lemma RC_upgrade cl v ds : W c mod B = 0 -> RC cl v ds -> RC true v ds.
  Proof. intros Hm [H1 H2 H3 H4]. constructor; try assumption. intros _. apply div_clean; assumption. Qed.

  (** every well-formed vector has a raw view *)
  Definition rawlist (v : ev) : list N := map (fun i => slotv v (N.of_nat i)) (seq 0 (N.to_nat (num v))).
  Lemma WF_RC v : WF v -> RC false v (rawlist v).
  Proof.
    intros Hw. constructor; [exact Hw| | |discriminate].
    - unfold rawlist, lenN. rewrite map_length, seq_length. lia.
    - intros i d Hi. unfold rawlist in Hi.
      pose proof (nthN_Some_lt Hi) as Hlt. unfold lenN in Hlt. rewrite map_length, seq_length in Hlt.
      unfold nthN in Hi. rewrite nth_error_map in Hi.
      rewrite (nth_error_nth' _ O) in Hi by (rewrite seq_length; lia).
      rewrite seq_nth in Hi by lia. cbn in Hi. rewrite N2Nat.id in Hi. congruence.
  Qed.

  Lemma RC_lt2 cl v ds i d : RC cl v ds -> nthN ds i = Some d -> d < 2 ^ B.
  Proof. intros H Hi. rewrite <- (rc_slot H Hi). apply (slotv_lt Hc Hcomp). Qed.
  Lemma RC_cover cl v ds : RC cl v ds -> lenN ds <= P * vlen (storage v).
  Proof. intros H. rewrite <- (rc_num H). apply (wf_cover (rc_wf H)). Qed.
  Lemma RC_max cl v ds : RC cl v ds -> lenN ds <= usize_max c.
  Proof. intros H. rewrite <- (rc_num H). apply (wf_num (rc_wf H)). Qed.
  Lemma RC_small cl v ds : roomy c -> RC cl v ds -> lenN ds + W c <= usize_max c.
  Proof. intros Hroomy H. rewrite <- (rc_num H). apply (roomy_num Hc Hcomp Hroomy (rc_wf H)). Qed.
  Lemma RC_fixable cl v ds : roomy c -> RC cl v ds -> fixable c E (lenN ds + 1).
  Proof.
    intros Hroomy H. pose proof (RC_small Hroomy H). apply (fixable_small Hc Hcomp). pose proof (EPB_le_W Hc Hcomp). lia.
  Qed.
  Lemma RC_lt_max cl v ds : roomy c -> RC cl v ds -> lenN ds < usize_max c.
  Proof. intros Hroomy H. pose proof (RC_small Hroomy H). pose proof W8. lia. Qed.

  Lemma RC_new : RC true (ev_new c) [].
  Proof.
    constructor.
    - constructor; cbn.
      + constructor.
      + lia.
      + unfold vlen; cbn. destruct (small c); lia.
      + destruct (small c) eqn:Hs; [destruct (ok_small Hc Hs) as [_ H]; exact H|lia].
      + lia.
    - reflexivity.
    - intros i d Hi. apply nthN_Some_lt in Hi. cbn in Hi. lia.
    - intros _ w. unfold wastev. cbn. unfold nthN. destruct (N.to_nat w); reflexivity.
  Qed.

  (** set_len: the new elements are whatever the storage holds *)
  Lemma RC_set_len cl v ds n : RC cl v ds -> n <= P * vlen (storage v) -> n <= usize_max c ->
    exists junk, RC cl (mkEv (storage v) n) (firstn (N.to_nat n) ds ++ junk)
      /\ lenN junk = n - lenN ds.
  Proof.
    intros H Hn Hnu.
    exists (map (fun i => slotv v (lenN ds + N.of_nat i)) (seq 0 (N.to_nat (n - lenN ds)))).
    assert (HL : lenN (map (fun i => slotv v (lenN ds + N.of_nat i)) (seq 0 (N.to_nat (n - lenN ds)))) = n - lenN ds).
    { unfold lenN. rewrite map_length, seq_length. lia. }
    split; [|exact HL].
    destruct H as [[H1 H2 H3 H4 Hu] H5 H6 H7]. constructor; cbn.
    - constructor; cbn; try assumption.
    - rewrite lenN_app, HL, lenN_firstn. lia.
    - intros i d Hi. change (slotv (mkEv (storage v) n) i) with (slotv v i).
      destruct (N.lt_ge_cases i (lenN (firstn (N.to_nat n) ds))) as [Hlt|Hge].
      + rewrite nthN_app_l in Hi by exact Hlt. rewrite lenN_firstn in Hlt.
        rewrite nthN_firstn in Hi by lia. apply H6; exact Hi.
      + rewrite nthN_app_r in Hi by exact Hge. pose proof (nthN_Some_lt Hi) as Hlt.
        rewrite HL in Hlt. rewrite lenN_firstn in *. unfold nthN in Hi.
        rewrite nth_error_map in Hi.
        rewrite (nth_error_nth' _ O) in Hi by (rewrite seq_length; lia).
        rewrite seq_nth in Hi by lia. cbn in Hi. injection Hi as Hi. rewrite <- Hi. f_equal. lia.
    - intros Hcl w. apply (H7 Hcl w).
  Qed.
  Lemma RC_set_len_le cl v ds n : RC cl v ds -> n <= lenN ds ->
    RC cl (mkEv (storage v) n) (firstn (N.to_nat n) ds).
  Proof.
    intros H Hn. pose proof (RC_cover H) as Hcv. pose proof (RC_max H) as Hmx.
    destruct (RC_set_len H (n := n)) as [junk [H1 H2]]; [lia|lia|].
    rewrite (@lenN_nil_inv _ junk), app_nil_r in H1 by lia. exact H1.
  Qed.

  (** replacing the storage by one that agrees on the covered elements *)
  Lemma RC_storage cl v ds s' : RC cl v ds ->
    Forall (fun b => b < 2 ^ W c) (data s') ->
    lenN ds <= P * vlen s' -> vlen s' <= vcap s' -> vcap s' <= alloc_max c ->
    (forall w, w * P < lenN ds -> nthN (data s') w = nthN (data (storage v)) w) ->
    (cl = true -> forall w b, nthN (data s') w = Some b -> waste c E b = 0) ->
    RC cl (mkEv s' (num v)) ds.
  Proof.
    intros [H1 H2 H3 H4] Hb Hcv Hcap Hal Hsame Hcln. constructor; cbn.
    - constructor; cbn; try assumption; [lia|exact (wf_num H1)].
    - exact H2.
    - intros i d Hi. rewrite <- (H3 i d Hi). unfold EvFacts.slotv; cbn.
      rewrite Hsame; [reflexivity|]. pose proof (nthN_Some_lt Hi). pose proof Ppos.
      pose proof (N.mul_div_le i P ltac:(lia)). lia.
    - intros Hcl w. unfold wastev; cbn. destruct (nthN (data s') w) as [b|] eqn:Hw; [|reflexivity].
      apply (Hcln Hcl w b Hw).
  Qed.
  Lemma RC_waste v ds : RC true v ds -> forall w b, nthN (data (storage v)) w = Some b -> waste c E b = 0.
  Proof. intros H w b Hw. pose proof (rc_clean H eq_refl w) as G. unfold wastev in G. rewrite Hw in G. exact G. Qed.

  Lemma w_lt_cover w n k : w * P < n -> n <= P * k -> w < k.
  Proof. intros H1 H2. pose proof Ppos. nia. Qed.

  Lemma waste_0 : waste c E 0 = 0.
  Proof. unfold waste. apply N.shiftr_0_l. Qed.

  Lemma nthN_repeat_inv A (x y : A) n i : nthN (repeat x n) i = Some y -> y = x.
  Proof. intros H. apply nth_error_In in H. apply repeat_spec in H. exact H. Qed.

  (** appending zero blocks *)
  Lemma RC_app_zero cl v ds cap' k : RC cl v ds ->
    vlen (storage v) + N.of_nat k <= cap' -> cap' <= alloc_max c ->
    RC cl (mkEv (mkRvec (data (storage v) ++ repeat 0 k) cap') (num v)) ds.
  Proof.
    intros H Hcap Hal. pose proof (RC_cover H) as Hcv. apply RC_storage; cbn; try exact H; try assumption.
    - apply Forall_app; split; [apply (wf_blocks (rc_wf H))|apply Forall_repeat, pow2_pos].
    - unfold vlen in *; cbn. rewrite lenN_app. lia.
    - unfold vlen in *; cbn. rewrite lenN_app, lenN_repeat. exact Hcap.
    - intros w Hw. apply nthN_app_l. apply (w_lt_cover Hw Hcv).
    - intros -> w b Hw. destruct (N.lt_ge_cases w (lenN (data (storage v)))) as [Hlt|Hge].
      + rewrite nthN_app_l in Hw by exact Hlt. apply (RC_waste H Hw).
      + rewrite nthN_app_r in Hw by exact Hge. apply nthN_repeat_inv in Hw. subst. apply waste_0.
  Qed.
  (** truncating the storage above the elements *)
  Lemma RC_firstn cl v ds n : RC cl v ds -> lenN ds <= P * n ->
    RC cl (mkEv (mkRvec (firstn (N.to_nat n) (data (storage v))) (vcap (storage v))) (num v)) ds.
  Proof.
    intros H Hn. pose proof (RC_cover H) as Hcv. pose proof (wf_cap (rc_wf H)). pose proof (wf_alloc (rc_wf H)).
    apply RC_storage; cbn; try exact H; try assumption.
    - apply Forall_firstn, (wf_blocks (rc_wf H)).
    - unfold vlen in *; cbn. rewrite lenN_firstn. pose proof Ppos. nia.
    - unfold vlen in *; cbn. rewrite lenN_firstn. lia.
    - intros w Hw. apply nthN_firstn. pose proof (w_lt_cover Hw Hn). lia.
    - intros -> w b Hw. apply (RC_waste H (w := w)).
      pose proof (nthN_Some_lt Hw) as Hlt. rewrite lenN_firstn in Hlt.
      rewrite nthN_firstn in Hw by lia. exact Hw.
  Qed.

  (** reading *)
  Lemma RC_get_raw_unchecked cl v ds i d : RC cl v ds -> nthN ds i = Some d ->
    get_raw_unchecked c E i v = Ret d.
  Proof.
    intros H Hi. pose proof (RC_cover H). pose proof (nthN_Some_lt Hi).
    rewrite (get_raw_unchecked_spec Hc Hcomp) by lia. f_equal. apply (rc_slot H Hi).
  Qed.
  Lemma RC_get_raw cl v ds i : RC cl v ds -> get_raw c E i v = Ret (nthN ds i).
  Proof.
    intros H. unfold get_raw, len. rewrite (rc_num H).
    destruct (N.leb_spec (lenN ds) i) as [Hi|Hi].
    - rewrite nthN_ge_None by exact Hi. reflexivity.
    - destruct (nthN_lt_Some Hi) as [d Hx]. rewrite (RC_get_raw_unchecked H Hx), Hx. reflexivity.
  Qed.
  Lemma RC_get cl v ds i : RC cl v ds ->
    get c E i v = match nthN ds i with
                  | None => Ret None
                  | Some d => let! x := from_discr E d in Ret (Some x)
                  end.
  Proof. intros H. unfold get. rewrite (RC_get_raw i H). reflexivity. Qed.

  (** writing *)
  Lemma RC_set_at cl v ds i d : RC cl v ds -> i < lenN ds -> d < 2 ^ B ->
    RC cl (set_at c E v i d) (updN ds i d).
  Proof.
    intros H Hi Hdl. pose proof (RC_cover H) as Hcv. pose proof (wf_blocks (rc_wf H)) as Hb.
    constructor.
    - apply (WF_set_at Hc Hcomp), (rc_wf H).
    - rewrite (num_set_at Hc Hcomp), lenN_updN. apply (rc_num H).
    - intros j e Hj. rewrite (slotv_set_at Hc Hcomp) by (try assumption; lia).
      rewrite nthN_updN in Hj. destruct (N.eqb_spec j i) as [->|Hne].
      + rewrite N.eqb_refl in Hj. destruct (i <? lenN ds); congruence.
      + destruct (N.eqb_spec i j); [congruence|]. apply (rc_slot H Hj).
    - intros Hcl w. rewrite (wastev_set_at Hc Hcomp) by assumption. apply (rc_clean H Hcl).
  Qed.
  Lemma RC_set_raw_unchecked cl v ds i d : RC cl v ds -> i < lenN ds -> d < 2 ^ B ->
    okr (fun _ v' => RC cl v' (updN ds i d)) never (set_raw_unchecked c E i d v).
  Proof.
    intros H Hi Hdl. pose proof (RC_cover H) as Hcv.
    rewrite (set_raw_unchecked_spec Hc Hcomp) by lia. cbn. apply RC_set_at; assumption.
  Qed.
  Lemma RC_set_raw cl v ds i d : RC cl v ds -> i < lenN ds -> d < 2 ^ B ->
    okr (fun _ v' => RC cl v' (updN ds i d)) never (set_raw c E i d v).
  Proof.
    intros H Hi Hdl. unfold set_raw, len. rewrite (rc_num H).
    destruct (N.leb_spec (lenN ds) i) as [Hx|_]; [lia|]. apply RC_set_raw_unchecked; assumption.
  Qed.
  Lemma RC_set_raw_oob cl v ds i d : RC cl v ds -> lenN ds <= i ->
    set_raw c E i d v = (Panic PIndex, v).
  Proof.
    intros H Hi. unfold set_raw, len. rewrite (rc_num H).
    destruct (N.leb_spec (lenN ds) i) as [_|Hx]; [reflexivity|lia].
  Qed.

  (** storage growth *)
  Lemma vec_ensure_cases n s : vcap s <= alloc_max c ->
    (exists cap', vec_ensure c n s = Ret (mkRvec (data s) cap') /\
        n <= cap' /\ vcap s <= cap' /\ cap' <= alloc_max c) \/
    vec_ensure c n s = Panic PCapacity \/ vec_ensure c n s = Abort.
  Proof.
    intros Hs. unfold vec_ensure. destruct (N.leb_spec n (vcap s)) as [H|H].
    - left. exists (vcap s). split; [destruct s; reflexivity|lia].
    - pose proof (ok_grow Hc H) as Hg.
      destruct (isize_max c <? _); [auto|].
      destruct (N.ltb_spec (alloc_max c) (grow c (vcap s) n)); [auto|].
      left. eexists; split; [reflexivity|lia].
  Qed.

  Lemma RC_grow cl v ds : RC cl v ds ->
    okr (fun _ v' => RC cl v' ds /\ num v' = num v /\ num v < P * vlen (storage v'))
        (fun k v' => k = PCapacity /\ v' = v) (grow_if_needed c E v).
  Proof.
    intros H. unfold grow_if_needed, len. pose proof (RC_cover H) as Hcv. pose proof Ppos as HP.
    pose proof (RC_max H) as Hsm. pose proof (wf_alloc (rc_wf H)) as Hal. pose proof (rc_num H) as Hn.
    destruct (N.eqb_spec (num v mod P) 0) as [Hm|Hm]; cbn [andb].
    - rewrite (blocks_for_aligned Hc Hcomp) by lia.
      destruct (N.eqb_spec (num v / P) (vlen (storage v))) as [He|He].
      + unfold on_storage, vec_push.
        destruct (vec_ensure_cases (vlen (storage v) + 1) Hal) as [[cap' [-> [H1 [H2 H3]]]]|[->| ->]]; cbn;
          [|split; reflexivity|exact I].
        split; [|split; [reflexivity|]].
        * apply (RC_app_zero (k := 1) H); [lia|exact H3].
        * unfold vlen in *; cbn. rewrite lenN_app. cbn. nia.
      + cbn. split; [exact H|split; [reflexivity|]].
        pose proof (N.div_mod (num v) P ltac:(lia)) as Hdm.
        destruct (N.eq_dec (num v / P) (vlen (storage v))); [contradiction|]. nia.
    - cbn. split; [exact H|split; [reflexivity|]].
      pose proof (N.div_mod (num v) P ltac:(lia)) as Hdm.
      destruct (N.lt_ge_cases (num v) (P * vlen (storage v))) as [|Hge]; [assumption|].
      exfalso. apply Hm. replace (num v) with (vlen (storage v) * P) by lia. apply N.mod_mul. lia.
  Qed.

  (** At usize::MAX elements push panics, but may have added a block. *)
  Definition push_fails cl (v : ev) (ds : list N) (k : panic) (v' : ev) : Prop :=
    (k = PCapacity /\ v' = v) \/ (k = PExpect /\ lenN ds = usize_max c /\ RC cl v' ds).
  Lemma push_fails_roomy cl v ds k v' : roomy c -> RC cl v ds -> push_fails cl v ds k v' -> k = PCapacity /\ v' = v.
  Proof. intros Hr H [G|[_ [G _]]]; [exact G|]. pose proof (RC_lt_max Hr H). lia. Qed.
  Lemma push_fails_same cl v ds k v' : RC cl v ds -> push_fails cl v ds k v' -> cap_panic k /\ RC cl v' ds.
  Proof. intros H [[-> ->]|[-> [_ G]]]; split; unfold cap_panic; auto. Qed.
  Lemma RC_push cl v ds x : RC cl v ds ->
    okr (fun _ v' => RC cl v' (ds ++ [to_d E x])) (push_fails cl v ds) (push c E x v).
  Proof.
    intros H. unfold push. pose proof (RC_max H) as Hsm.
    eapply okr_bind_mono; [apply (RC_grow H)| |intros k s Hk; left; exact Hk].
    intros _ v1 [H1 [Hn Hlt]]. pose proof (rc_num H) as Hnum.
    eapply okr_reads; [reflexivity|]. rewrite Hn, Hnum.
    destruct (N.leb_spec (lenN ds + 1) (usize_max c)) as [Hle|Hx].
    2:{ unfold bind, lift; cbn. right. split; [reflexivity|]. split; [lia|exact H1]. }
    eapply okr_lift; [reflexivity|].
    unfold bind at 1, set_len.
    destruct (RC_set_len H1 (n := lenN ds + 1)) as [junk [Hj HLj]]; [lia|lia|].
    rewrite firstn_lenN in Hj by lia.
    replace (lenN ds + 1 - lenN ds) with (N.of_nat 1) in HLj by lia.
    destruct (lenN_cons_inv HLj) as [y [l' [-> Hl']]].
    rewrite (lenN_nil_inv Hl') in Hj.
    unfold set. eapply okr_mono; [apply (RC_set_raw (i := lenN ds) (d := to_d E x) Hj)|..].
    - rewrite lenN_app. cbn. lia.
    - apply Hd.
    - intros u s Hs. cbv beta in Hs. rewrite updN_app_r in Hs. exact Hs.
    - intros k s [].
  Qed.
  Lemma RC_pop_nil cl v : RC cl v [] -> pop c E v = (Ret None, v).
  Proof. intros H. unfold pop, is_empty, len. rewrite (rc_num H). reflexivity. Qed.
  Lemma RC_pop_snoc cl v ds d : RC cl v (ds ++ [d]) ->
    okr (fun r v' => RC cl v' ds /\ exists x, from_d E d = Some x /\ r = Some x)
        (fun k v' => k = PDiscr /\ v' = v /\ from_d E d = None) (pop c E v).
  Proof.
    intros H. unfold pop, is_empty, len. pose proof (rc_num H) as Hn.
    rewrite lenN_app in Hn. cbn in Hn.
    destruct (N.eqb_spec (num v) 0); [lia|].
    eapply okr_lift. { apply (usub_ok Hc Hcomp). lia. }
    assert (Hg : nthN (ds ++ [d]) (num v - 1) = Some d).
    { replace (num v - 1) with (lenN ds) by lia. apply nthN_middle. }
    unfold bind at 1, reads at 1. rewrite (RC_get _ H), Hg. unfold from_discr.
    destruct (from_d E d) as [x|]; cbn.
    - rewrite (usub_ok Hc Hcomp) by lia. cbn. split; [|eauto].
      pose proof (RC_set_len_le (n := num v - 1) H) as G.
      rewrite lenN_app in G. cbn in G. specialize (G ltac:(lia)).
      replace (N.to_nat (num v - 1)) with (length ds) in G by (unfold lenN in *; lia).
      rewrite firstn_app, Nat.sub_diag, firstn_all, app_nil_r in G. exact G.
    - auto.
  Qed.

  (** reserve *)
  Lemma RC_reserve_overflow cl v ds k : RC cl v ds -> usize_max c < lenN ds + k ->
    reserve c E k v = (Panic PExpect, v).
  Proof.
    intros H Hk. unfold reserve, bind, reads, lift, len. rewrite (rc_num H).
    destruct (N.leb_spec (lenN ds + k) (usize_max c)); [lia|reflexivity].
  Qed.
  (** the corner where [desired/E + 1] itself overflows *)
  Definition reserve_fits (n k : N) : Prop := 2 <= P \/ n + k < usize_max c.
  Lemma div_lt_usize n : n <= usize_max c -> 2 <= P \/ n < usize_max c -> n / P + 1 <= usize_max c.
  Proof.
    intros H1 H2. pose proof Ppos. pose proof (usize_max_big Hc Hcomp).
    destruct H2 as [H2|H2].
    - assert (n / P <= n / 2) by (apply N.div_le_compat_l; lia).
      assert (n / 2 <= usize_max c / 2) by (apply N.div_le_mono; lia).
      assert (usize_max c / 2 < usize_max c) by (apply N.div_lt; lia). lia.
    - assert (n / P <= n) by (apply N.div_le_upper_bound; nia). lia.
  Qed.
  Lemma RC_reserve cl v ds k : RC cl v ds -> lenN ds + k <= usize_max c -> reserve_fits (lenN ds) k ->
    okr (fun _ v' => RC cl v' ds /\ num v' = num v /\ vlen (storage v') = (lenN ds + k) / P + 1)
        (fun p v' => p = PCapacity /\ v' = v) (reserve c E k v).
  Proof.
    intros H Hk Hfit. unfold reserve. eapply okr_reads; [reflexivity|]. unfold len. rewrite (rc_num H).
    eapply okr_lift.
    { destruct (N.leb_spec (lenN ds + k) (usize_max c)) as [_|Hx]; [reflexivity|lia]. }
    eapply okr_lift. { apply (uadd_ok Hc Hcomp). apply div_lt_usize; [exact Hk|exact Hfit]. }
    unfold on_storage, vec_resize. set (n := (lenN ds + k) / P + 1).
    pose proof Ppos as HP.
    assert (Hn : lenN ds + k < P * n).
    { unfold n. pose proof (N.mul_succ_div_gt (lenN ds + k) P ltac:(lia)). lia. }
    destruct (N.leb_spec n (vlen (storage v))) as [Hle|Hgt].
    - cbn. split; [|split; [apply (rc_num H)|]].
      + apply RC_firstn; [exact H|lia].
      + unfold vlen in *; cbn. rewrite lenN_firstn. lia.
    - pose proof (wf_alloc (rc_wf H)) as Hal.
      destruct (vec_ensure_cases n Hal) as [[cap' [-> [H1 [H2 H3]]]]|[->| ->]]; cbn;
        [|split; reflexivity|exact I].
      split; [|split; [apply (rc_num H)|]].
      + apply RC_app_zero; [exact H|lia|exact H3].
      + unfold vlen in *; cbn. rewrite lenN_app, lenN_repeat. lia.
  Qed.
  (** release build, one element per block, len + k = usize::MAX: the storage is emptied *)
  Lemma reserve_wraps v k : ovf c = false -> P = 1 -> num v + k = usize_max c ->
    reserve c E k v = (Ret tt, mkEv (mkRvec [] (vcap (storage v))) (num v)).
  Proof.
    intros Ho HP Hk. unfold reserve, bind, reads, lift, len. rewrite Hk, N.leb_refl, HP.
    rewrite N.div_1_r. unfold uadd.
    destruct (N.leb_spec (usize_max c + 1) (usize_max c)); [lia|]. rewrite Ho.
    rewrite <- (usize_pow Hc Hcomp), N.mod_same by (pose proof (pow2_pos (usize_bits c)); lia).
    unfold on_storage, vec_resize. destruct (N.leb_spec 0 (vlen (storage v))); [|lia]. reflexivity.
  Qed.
  Lemma reserve_wraps_debug v k : ovf c = true -> P = 1 -> num v + k = usize_max c ->
    reserve c E k v = (Panic POverflow, v).
  Proof.
    intros Ho HP Hk. unfold reserve, bind, reads, lift, len. rewrite Hk, N.leb_refl, HP.
    rewrite N.div_1_r. unfold uadd.
    destruct (N.leb_spec (usize_max c + 1) (usize_max c)); [lia|]. rewrite Ho. reflexivity.
  Qed.

  Lemma RC_fix_storage cl v ds : fixable c E (lenN ds) -> RC cl v ds ->
    okr (fun _ v' => RC cl v' ds /\ num v' = num v /\ vlen (storage v') = need c E (lenN ds)
          /\ vcap (storage v') = vcap (storage v))
        never (fix_storage c E v).
  Proof.
    intros Hfix H. unfold fix_storage, len, vec_truncate. rewrite (rc_num H).
    rewrite (blocks_for_fixable Hc Hcomp) by exact Hfix. cbn.
    pose proof (need_cover Hc Hcomp (n := lenN ds)) as Hn.
    split; [|split; [reflexivity|split; [|reflexivity]]].
    - rewrite <- (rc_num H). apply RC_firstn; [exact H|]. rewrite (rc_num H). exact Hn.
    - unfold vlen; cbn. rewrite lenN_firstn.
      pose proof (need_mono Hc Hcomp (RC_cover H)) as Hm. unfold vlen in Hm. lia.
  Qed.
  Lemma RC_shrink_to_fit cl v ds : fixable c E (lenN ds) -> RC cl v ds ->
    okr (fun _ v' => RC cl v' ds /\ num v' = num v /\ vlen (storage v') = need c E (lenN ds)
          /\ vcap (storage v') = shrink c (vcap (storage v)) (need c E (lenN ds)))
        never (shrink_to_fit c E v).
  Proof.
    intros Hfix H. unfold shrink_to_fit. eapply okr_bind_mono; [apply (RC_fix_storage Hfix H)| |auto].
    intros _ v1 [H1 [H2 [H3 H4]]]. cbn.
    pose proof (wf_cap (rc_wf H1)) as Hcap. pose proof (wf_alloc (rc_wf H1)) as Hal.
    pose proof (ok_shrink Hc Hcap) as Hs.
    split; [|split; [exact H2|split; [exact H3|rewrite H3, H4; reflexivity]]].
    apply RC_storage; cbn; try exact H1; try lia.
    - apply (wf_blocks (rc_wf H1)).
    - apply (RC_cover H1).
    - unfold vec_shrink_to_fit, vlen in *; cbn. lia.
    - reflexivity.
    - intros -> w b Hw. apply (RC_waste H1 Hw).
  Qed.

  Lemma RC_truncate cl v ds n : RC cl v ds ->
    okr (fun _ v' => RC cl v' (firstn (N.to_nat n) ds) /\ storage v' = storage v) never (truncate n v).
  Proof.
    intros H. unfold truncate. rewrite (rc_num H). destruct (N.ltb_spec n (lenN ds)) as [Hlt|Hge]; cbn.
    - split; [|reflexivity]. apply RC_set_len_le; [exact H|lia].
    - rewrite firstn_lenN by exact Hge. auto.
  Qed.

  (** swap, swap_remove *)
  Lemma RC_swap cl v ds ia ib a b : RC cl v ds -> nthN ds ia = Some a -> nthN ds ib = Some b ->
    okr (fun _ v' => RC cl v' (updN (updN ds ia b) ib a)) never (swap c E ia ib v).
  Proof.
    intros H Ha Hb. unfold swap.
    eapply okr_reads. { rewrite (RC_get_raw _ H), Ha. reflexivity. }
    eapply okr_reads. { rewrite (RC_get_raw _ H), Hb. reflexivity. }
    eapply okr_bind_mono.
    - apply (RC_set_raw (i := ia) (d := b) H); [eapply nthN_Some_lt, Ha|eapply RC_lt2, Hb; exact H].
    - intros u v1 H1. apply RC_set_raw; [exact H1| |eapply RC_lt2, Ha; exact H].
      rewrite lenN_updN. eapply nthN_Some_lt, Hb.
    - intros k s [].
  Qed.
  Lemma RC_swap_oob cl v ds ia ib : RC cl v ds -> lenN ds <= ia \/ lenN ds <= ib ->
    swap c E ia ib v = (Panic PUnwrap, v).
  Proof.
    intros H Hor. unfold swap, bind, reads. rewrite !(RC_get_raw _ H). cbn [obind].
    destruct (nthN ds ia) as [a|] eqn:Ha; [|reflexivity]. cbn.
    destruct (nthN ds ib) as [b|] eqn:Hb; [|reflexivity].
    apply nthN_Some_lt in Ha. apply nthN_Some_lt in Hb. lia.
  Qed.
End Ops.
Arguments reserve_fits {T} c E n k.
Arguments push_fails {T} c E cl v ds k v'.
