(** InlineFacts.v -- proofs for PropInline.v. *)
From Verif Require Import MemFacts3 CapFacts.
From Verif Require Export Inline.
From Coq Require Import ZifyBool ZifyNat ZifyN.
Open Scope N_scope.
Set Implicit Arguments.

Section S.
  Context {T : Type} (c : cfg) (E : enumlike T).
  Hypothesis Hc : cfg_ok c.
  Hypothesis Ha : admits c E.
  Hypothesis Hk : keeps_inline c.
  Local Notation P := (EPB c E).
  Let W32 : W c = 32. Proof. exact (proj1 (ok_small Hc (proj1 Hk))). Qed.
  Lemma inline_max_P : inline_max E = 4 * P. Proof. unfold inline_max, EPB. rewrite W32. reflexivity. Qed.
  Lemma div_P : 32 / BITS E = P. Proof. unfold EPB. rewrite W32. reflexivity. Qed.
  Lemma inline_serves : serves c 4 (fun cap => cap = 4).
  Proof.
    destruct Hk as [H1 H2]. split.
    - unfold vec_new. rewrite H1. reflexivity.
    - intros cap k ->. apply H2.
    - intros cap need -> G1 G2. lia.
  Qed.
  Lemma inline_roomy : P * 4 + P <= usize_max c.
  Proof.
    destruct (P_le_W Hc Ha) as [_ H]. rewrite W32 in H. unfold usize_max.
    destruct (ok_usize Hc) as [-> | ->]; [change (2 ^ 32) with 4294967296|change (2 ^ 64) with 18446744073709551616]; lia.
  Qed.
  Lemma lt_div k : k / P + 1 <= 4 <-> k < 4 * P. Proof. rewrite (div_n 4 Hc Ha). lia. Qed.
  Lemma le_blocks k : blocks c E k <= 4 <-> k <= 4 * P.
  Proof.
    destruct (P_le_W Hc Ha) as [HP _]. unfold blocks. split; intros H.
    - pose proof (N.div_mod (k + (P - 1)) P ltac:(lia)). pose proof (N.mod_lt (k + (P - 1)) P ltac:(lia)). nia.
    - apply N.lt_succ_r. apply N.div_lt_upper_bound; lia.
  Qed.
  Lemma fits_demand ns o : fits_inline E ns o = true <-> demand c E ns o <= 4.
  Proof.
    destruct o; cbn [fits_inline demand]; rewrite ?inline_max_P, ?div_P; try (split; [intros _; lia|reflexivity]).
    all: rewrite ?N.ltb_lt, ?N.leb_le, ?lt_div, ?le_blocks; try reflexivity.
    - unfold fill_demand. destruct (N.leb_spec n (4 * P)) as [H|H]; [rewrite lt_div; reflexivity|].
      split; [lia|]. intros G. exfalso. assert (4 <= n / P) by (apply N.div_le_lower_bound; [destruct (P_le_W Hc Ha)|]; lia). nia.
    - rewrite orb_true_iff, N.leb_le, N.ltb_lt. destruct (N.leb_spec n (reg ns 0 r)) as [H|H]; [split; [intros _; lia|auto]|].
      unfold fill_demand. destruct (N.leb_spec (n - reg ns 0 r) (4 * P)) as [G|G].
      + rewrite lt_div. lia.
      + split; [lia|]. intros K. exfalso. assert (4 <= (n - reg ns 0 r) / P) by (apply N.div_le_lower_bound; [destruct (P_le_W Hc Ha)|]; lia). nia.
    - destruct (_ =? 0); rewrite ?N.ltb_lt, ?N.leb_le, ?lt_div, ?le_blocks; reflexivity.
  Qed.
  Lemma all_demands prog : forall p, all_inline c E p prog = true <-> demands c E p prog <= 4.
  Proof.
    induction prog as [|o prog IH]; intros p; cbn [all_inline demands]; [split; [intros _; lia|reflexivity]|].
    rewrite andb_true_iff, fits_demand, IH. lia.
  Qed.
  Lemma all_demands_vec prog : forall sp, all_inline_vec E sp prog = true <-> vec_demands c E sp prog <= 4.
  Proof.
    induction prog as [|o prog IH]; intros p; cbn [all_inline_vec vec_demands]; [split; [intros _; lia|reflexivity]|].
    rewrite andb_true_iff, fits_demand, IH. lia.
  Qed.
End S.

(** ** spilling *)
Section Spill.
  Context {T : Type} (c : cfg) (E : enumlike T).
  Hypothesis Hc : cfg_ok c.
  Hypothesis Ha : admits c E.
  Local Notation P := (EPB c E).
  Definition le_cap := Rv N.le.
  Let g cap need : cap < need -> cap <= grow c cap need. Proof. intros H. pose proof (ok_grow Hc H). lia. Qed.
  Lemma le_keeps A (m : M ev A) v : keeps le_cap m -> vcap (storage v) <= vcap (storage (snd (m v))). Proof. intros H. apply H. Qed.
  Lemma resize_big n x v u v' : 4 < n -> vlen (storage v) <= vcap (storage v) -> on_storage (vec_resize c n x) v = (Ret u, v') -> 4 < vcap (storage v').
  Proof.
    intros Hn Hv. unfold on_storage, vec_resize. destruct (N.leb_spec n (vlen (storage v))) as [H|H].
    - intros [= _ <-]. cbn. lia.
    - unfold vec_ensure. destruct (N.leb_spec n (vcap (storage v))) as [G|G]; [intros [= _ <-]; cbn; lia|].
      pose proof (ok_grow Hc G). cbn. destruct (_ <? _); [discriminate|]. destruct (_ <? _); [discriminate|]. intros [= _ <-]. cbn. lia.
  Qed.
  Lemma reserve_big k v v' : vlen (storage v) <= vcap (storage v) -> 4 * P <= len v + k -> len v + k < usize_max c -> reserve c E k v = (Ret tt, v') -> 4 < vcap (storage v').
  Proof.
    intros Hv Hk Hu. unfold reserve, bind, reads, lift. rewrite (proj2 (N.leb_le _ _)) by lia.
    assert (HP : 1 <= P) by apply (P_le_W Hc Ha). assert (Hd : 4 <= (len v + k) / P) by (apply N.div_le_lower_bound; lia).
    assert (Hl : (len v + k) / P <= len v + k) by (apply N.div_le_upper_bound; [lia|]; nia).
    rewrite uadd_exact by lia. intros G. refine (@resize_big _ 0 v tt v' _ Hv G). lia.
  Qed.
  Lemma extend_big it v v' : vlen (storage v) <= vcap (storage v) -> 4 * P <= len v + lower it -> len v + lower it < usize_max c ->
    extend c E it v = (Ret tt, v') -> 4 < vcap (storage v').
  Proof.
    intros Hv Hk Hu. unfold extend, bind at 1, reads at 1. unfold bind at 1.
    destruct (reserve c E (lower it) v) as [[[]|q| |] v1] eqn:E1; try discriminate. apply reserve_big in E1; try assumption.
    intros G. enough (vcap (storage v1) <= vcap (storage v')) by lia.
    match type of G with ?m v1 = _ => pose proof (@le_keeps _ m v1) as K; rewrite G in K end. apply K. clear -g.
    repeat (apply (keeps_bind (@Rv_trans N.le N.le_trans)); [|intros]).
    - apply keeps_reads. exact (@Rv_refl N.le N.le_refl).
    - apply k_set_len. exact N.le_refl.
    - apply k_known; [exact N.le_refl|exact N.le_trans].
    - apply k_rest; [exact N.le_refl|exact N.le_trans|exact g].
  Qed.
End Spill.
Lemma repeat_len A (x : A) k : lenN (repeat x (N.to_nat k)) = k. Proof. unfold lenN. rewrite repeat_length, N2Nat.id. reflexivity. Qed.
Lemma new_cap c : vlen (storage (ev_new c)) <= vcap (storage (ev_new c)). Proof. cbn. unfold vlen, lenN. cbn. lia. Qed.
Lemma build_ret A c (m : M ev A) v : build c m = Ret v -> exists a, m (ev_new c) = (Ret a, v).
Proof. unfold build. destruct (m (ev_new c)) as [[a|k| |] w]; try discriminate. intros [= <-]. eauto. Qed.
Section Pushes.
  Context {T : Type} (c : cfg) (E : enumlike T).
  Hypothesis Hs : setting c E.
  Hypothesis Hk : keeps_inline c.
  Let Hc := s_ok Hs. Let Ha := proj1 (proj2 (proj2 Hs)).
  Lemma push_inline v l x : holds c E v l -> inline v -> lenN l < 4 * EPB c E ->
    exists v', push c E x v = (Ret tt, v') /\ inline v' /\ holds c E v' (l ++ [x]).
  Proof.
    intros H Hi Hl. pose proof (@fits_push T c E 4 _ Hc (inline_roomy Hc Ha Hk) Ha (inline_serves Hc Hk) x v ltac:(rewrite (holds_len Hs H); lia)) as F.
    destruct (@fed_result0 _ _ _ _ _ _ _ _ Hi F (push_ok Hs x H)) as [[] [v' [G1 G2]]]; [intros k s' G; exact (grow_no_room Hs G)|].
    exists v'. split; [exact G1|]. destruct (F Hi) as (_ & F2 & _). rewrite G1 in F2. split; [exact F2|exact G2].
  Qed.
  Lemma pushes_from xs : forall v l, holds c E v l -> inline v -> lenN l + lenN xs <= 4 * EPB c E ->
    exists v', m_run c E [v] (map (OPush 0) xs) = (repeat (MRes RUnit) (length xs), [v']) /\ inline v' /\ holds c E v' (l ++ xs).
  Proof.
    induction xs as [|x xs IH]; intros v l H Hi Hl.
    - exists v. rewrite app_nil_r. auto.
    - rewrite lenN_cons in Hl. destruct (push_inline x H Hi) as (v1 & G1 & G2 & G3); [lia|].
      destruct (IH v1 (l ++ [x]) G3 G2) as (v' & K1 & K2 & K3); [rewrite lenN_app; change (lenN [x]) with 1; lia|].
      exists v'. rewrite <- app_assoc in K3. split; [|auto]. cbn [map m_run m_step]. unfold m_on. cbn [nth_error]. rewrite G1. cbn [of_outcome upd].
      rewrite K1. reflexivity.
  Qed.
  Lemma pushes_inline xs : lenN xs <= inline_max E ->
    exists v, m_run c E [ev_new c] (map (OPush 0) xs) = (repeat (MRes RUnit) (length xs), [v]) /\ inline v /\ holds c E v xs.
  Proof.
    rewrite (inline_max_P _ Hc Hk). intros H. apply (@pushes_from xs (ev_new c) []).
    - apply (new_ok Hs).
    - unfold inline, ev_new, vec_new. cbn. rewrite (proj1 Hk). reflexivity.
    - exact H.
  Qed.
End Pushes.
