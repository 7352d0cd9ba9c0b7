(** MacroFacts2.v -- the emitted expressions compute what the combinators of EnumLike.v compute. *)
From Coq Require Import ZifyBool ZifyNat ZifyN String.
From Verif Require Export MacroFacts DeriveSpec.
From Coq Require Import List.
Close Scope string_scope.
Open Scope N_scope.
Set Implicit Arguments.
Unset Strict Implicit.

(** ** Names *)
Lemma fname_eqb_eq f g : fname_eqb f g = true <-> f = g.
Proof.
  destruct f as [i|s], g as [j|t]; cbn; split; intros H; try discriminate.
  - apply Nat.eqb_eq in H. congruence.
  - injection H as ->. apply Nat.eqb_refl.
  - apply String.eqb_eq in H. congruence.
  - injection H as ->. apply String.eqb_refl.
Qed.
Lemma index_nth K (eqb : K -> K -> bool) (Heq : forall x y, eqb x y = true <-> x = y) l : NoDup l ->
  forall i x, nth_error l i = Some x -> index_of eqb x l = Some i.
Proof.
  induction 1 as [|y l Hy H IH]; intros [|i] x Hx; cbn in Hx; try discriminate.
  - injection Hx as ->. cbn. rewrite (proj2 (Heq x x) eq_refl). reflexivity.
  - cbn. destruct (eqb x y) eqn:E; [|rewrite (IH _ _ Hx); reflexivity].
    apply Heq in E. subst y. exfalso. apply Hy. eapply nth_error_In. exact Hx.
Qed.
Lemma map_fst_combine X Y (l : list X) : forall (m : list Y), length l = length m -> map fst (combine l m) = l /\ map snd (combine l m) = m.
Proof.
  induction l as [|x l IH]; intros [|y m] H; try discriminate; [split; reflexivity|]. injection H as H. destruct (IH _ H) as [H1 H2].
  cbn. rewrite H1, H2. split; reflexivity.
Qed.
Lemma assoc_combine V names (vs : list V) i f : NoDup names -> length names = length vs -> nth_error names i = Some f ->
  assoc (combine names vs) f = nth_error vs i.
Proof.
  intros Hn Hl Hi. destruct (map_fst_combine Hl) as [H1 H2]. unfold assoc. rewrite H1, H2, (index_nth fname_eqb_eq Hn Hi). reflexivity.
Qed.
Lemma gather_Forall2 l ns xs : Forall2 (fun f x => assoc l f = Some x) ns xs -> gather ns l = Ret xs.
Proof. induction 1 as [|f x ns xs H _ IH]; [reflexivity|]. cbn. rewrite H, IH. reflexivity. Qed.
Lemma Forall2_nth X Y (R : X -> Y -> Prop) l : forall m, length l = length m ->
  (forall i x y, nth_error l i = Some x -> nth_error m i = Some y -> R x y) -> Forall2 R l m.
Proof.
  induction l as [|x l IH]; intros [|y m] Hl H; try discriminate; constructor.
  - exact (H O x y eq_refl eq_refl).
  - apply IH; [injection Hl; auto|]. intros i. exact (H (S i)).
Qed.
Lemma gather_combine names vs : NoDup names -> length names = length vs -> gather names (combine names vs) = Ret vs.
Proof.
  intros Hn Hl. apply gather_Forall2. apply Forall2_nth; [exact Hl|]. intros i f x Hf Hx. rewrite (assoc_combine Hn Hl Hf). exact Hx.
Qed.

Lemma bind_assoc X Y Z (m : outcome X) (f : X -> outcome Y) (g : Y -> outcome Z) :
  (let! y := (let! x := m in f x) in g y) = let! x := m in let! y := f x in g y.
Proof. destruct m; reflexivity. Qed.

Section Compute.
  Variable c : cfg.
  Hypothesis Hbits : 2 <= usize_bits c.
  Context {A : Type}.
  Variable impl_of : A -> code.
  Hypothesis Hfit : forall t m, k_nv (impl_of t) = Some m -> m <= usize_max c.
  Local Notation ks ts := (map impl_of ts).
  Local Notation nums ts := (map num_variants (map impl_of ts)).
  Definition ev v env (e : ex A) : outcome N := let! x := eval c impl_of v env e in to_num x.

  Lemma ev_add v env a b : ev v env (EBin OAdd a b) = let! m := ev v env a in let! n := ev v env b in uadd c m n.
  Proof.
    unfold ev. cbn [eval]. destruct (eval c impl_of v env a) as [[m|m]| | |]; cbn; try reflexivity.
    destruct (eval c impl_of v env b) as [[n|n]| | |]; cbn; try reflexivity. destruct (uadd c m n); reflexivity.
  Qed.
  Lemma ev_sub v env a b : ev v env (EBin OSub a b) = let! m := ev v env a in let! n := ev v env b in usub c m n.
  Proof.
    unfold ev. cbn [eval]. destruct (eval c impl_of v env a) as [[m|m]| | |]; cbn; try reflexivity.
    destruct (eval c impl_of v env b) as [[n|n]| | |]; cbn; try reflexivity. destruct (usub c m n); reflexivity.
  Qed.
  Lemma ev_mul v env a b : ev v env (EBin OMul a b) = let! m := ev v env a in let! n := ev v env b in umul c m n.
  Proof.
    unfold ev. cbn [eval]. destruct (eval c impl_of v env a) as [[m|m]| | |]; cbn; try reflexivity.
    destruct (eval c impl_of v env b) as [[n|n]| | |]; cbn; try reflexivity. destruct (umul c m n); reflexivity.
  Qed.
  Lemma ev_div v env a b : ev v env (EWrappingDiv a b) = let! m := ev v env a in let! n := ev v env b in udiv m n.
  Proof.
    unfold ev. cbn [eval]. destruct (eval c impl_of v env a) as [[m|m]| | |]; cbn; try reflexivity.
    destruct (eval c impl_of v env b) as [[n|n]| | |]; cbn; try reflexivity. destruct (udiv m n); reflexivity.
  Qed.
  Lemma ev_rem v env a b : ev v env (EWrappingRem a b) = let! m := ev v env a in let! n := ev v env b in urem m n.
  Proof.
    unfold ev. cbn [eval]. destruct (eval c impl_of v env a) as [[m|m]| | |]; cbn; try reflexivity.
    destruct (eval c impl_of v env b) as [[n|n]| | |]; cbn; try reflexivity. destruct (urem m n); reflexivity.
  Qed.
  Lemma ev_to v env t x y : env x = Some y -> ev v env (EToDiscr t x) = k_to (impl_of t) y.
  Proof. intros H. unfold ev. cbn [eval]. rewrite H. destruct (k_to (impl_of t) y); reflexivity. Qed.

  Lemma ev_chain v env l : forall e, ev v env (fold_left (fun e t => EBin OMul e (ENv (Some t))) l e) =
    let! a := ev v env e in mul_all c a (nums l).
  Proof.
    induction l as [|t l IH]; intros e; cbn [fold_left map mul_all].
    - destruct (ev v env e); reflexivity.
    - rewrite IH, ev_mul. rewrite !bind_assoc. destruct (ev v env e) as [m| | |]; reflexivity.
  Qed.
  Lemma ev_pex v env l : ev v env (pex l) = product c (nums l) (length l).
  Proof.
    destruct l as [|t l]; [reflexivity|]. cbn [pex]. rewrite ev_chain. unfold product. rewrite firstn_all2 by (rewrite !map_length; auto). reflexivity.
  Qed.
  Lemma ev_pex_firstn v env all j : ev v env (pex (firstn j all)) = product c (nums all) j.
  Proof.
    rewrite ev_pex. unfold product. rewrite firstn_all2 by (rewrite !map_length; auto). rewrite !firstn_map. reflexivity.
  Qed.

  Lemma run_leads v env p ts e : leads p ts e -> run_num c impl_of v env ts = ev v env e.
  Proof. intros H. unfold run_num, run, ev. rewrite (leads_parse H). reflexivity. Qed.

  (** to_discr_body *)
  Lemma zip_to_ok (all ts : list A) : forall j xs, length xs = length ts -> forall ats ae, leads 3 ats ae ->
    exists e, leads 3 (ats ++ zip_to (map (fun i => ptoks (firstn i all)) (seq j (length ts))) ts xs) e /\
      forall v env vs, Forall2 (fun x y => env x = Some y) xs vs ->
        ev v env e = let! a := ev v env ae in to_fields c (nums all) j a (ks ts) vs.
  Proof.
    induction ts as [|t ts IH]; intros j [|x xs] Hl ats ae Ha; try discriminate; cbn [length seq map zip_to].
    - rewrite app_nil_r. exists ae. split; [exact Ha|]. intros v env vs Hv. inversion Hv; subst. cbn. destruct (ev v env ae); reflexivity.
    - injection Hl as Hl.
      assert (Hnew : leads 3 (ats ++ [KPlus] ++ ptoks (firstn j all) ++ [KStar] ++ [KToDiscr t x]) (EBin OAdd ae (EBin OMul (pex (firstn j all)) (EToDiscr t x)))).
      { apply (@leads_bin A KPlus OAdd); [reflexivity|exact Ha|]. apply (@leads_bin A KStar OMul); [reflexivity|apply ptoks_leads|].
        apply leads_tok, operand_to. }
      destruct (IH (S j) xs Hl _ _ Hnew) as [e [He Hev]]. exists e. split.
      + rewrite <- !app_assoc in He. cbn [app] in He |- *. exact He.
      + intros v env vs Hv. inversion Hv as [|x0 y xs0 vs0 Hx Hv']; subst. rewrite (Hev _ _ _ Hv'), ev_add, ev_mul, ev_pex_firstn, (ev_to _ _ Hx).
        cbn [map to_fields]. rewrite !bind_assoc. destruct (ev v env ae) as [a| | |]; cbn [obind]; try reflexivity.
        rewrite !bind_assoc. destruct (product c (nums all) j); cbn [obind]; try reflexivity. rewrite ?bind_assoc.
        destruct (k_to (impl_of t) y); cbn [obind]; try reflexivity.
  Qed.
  Lemma to_body_ok fs ts off oe ox xs : ts <> [] -> leads 3 off oe ->
    (ox = Some xs \/ (ox = None /\ xs = map ASelf fs)) -> length xs = length ts ->
    forall v env vs, Forall2 (fun x y => env x = Some y) xs vs ->
    run_num c impl_of v env (to_discr_body fs ts off ox) = let! o := ev v env oe in to_fields c (nums ts) 0 o (ks ts) vs.
  Proof.
    intros Hne Hoff Hox Hl v env vs Hv.
    assert (E : to_discr_body fs ts off ox = ([KOpen] ++ off ++ [KClose]) ++ zip_to (num_variants_product (map Some ts)) ts xs).
    { unfold to_discr_body. destruct Hox as [-> | [-> ->]]; rewrite <- !app_assoc; reflexivity. }
    rewrite E, (nvp_ptoks Hne).
    destruct (@zip_to_ok ts ts 0 xs Hl ([KOpen] ++ off ++ [KClose]) oe) as [e [He Hev]].
    { apply (@leads_le A 5); [lia|]. apply operand_leads; [exact (operand_paren Hoff)|]. rewrite !app_length. cbn [length]. lia. }
    rewrite (run_leads _ _ He). exact (Hev _ _ _ Hv).
  Qed.

  (** from_discr_body *)
  Lemma rems_cons (t t' : A) ts : rems (t :: t' :: ts) = [KWrappingRem; KOpen; KNv (Some t); KClose] :: rems (t' :: ts).
  Proof. unfold rems. cbn [length Nat.sub]. rewrite Nat.sub_0_r. cbn [firstn map app]. reflexivity. Qed.
  Lemma zip_from_ok (all : list A) value ve p z v : leads p value ve -> ev v (fun _ => None) ve = Ret z ->
    forall ts, ts <> [] -> forall j fs, length fs = length ts ->
    eval_literal c impl_of v (zip_from value fs ts (map (fun i => ptoks (firstn i all)) (seq j (length ts))) (rems ts)) =
    let! vs := from_fields c (nums all) j z (ks ts) in Ret (combine fs vs).
  Proof.
    intros Hval Hz. induction ts as [|t ts IH]; [congruence|]. intros _ j [|f fs] Hl; [discriminate|]. injection Hl as Hl.
    assert (Hdiv : operand (([KOpen] ++ value ++ [KClose]) ++ [KWrappingDiv; KOpen] ++ ptoks (firstn j all) ++ [KClose]) (EWrappingDiv ve (pex (firstn j all)))).
    { eapply operand_div; [exact (operand_paren Hval)|apply ptoks_leads]. }
    cbn [length seq map from_fields]. destruct ts as [|t' ts].
    - change (rems [t]) with ([[]] : list (list (tok A))). cbn [seq map zip_from eval_literal]. rewrite app_nil_r.
      replace ([KOpen] ++ value ++ [KClose; KWrappingDiv; KOpen] ++ ptoks (firstn j all) ++ [KClose])
        with (([KOpen] ++ value ++ [KClose]) ++ [KWrappingDiv; KOpen] ++ ptoks (firstn j all) ++ [KClose]) by (rewrite <- !app_assoc; reflexivity).
      rewrite (run_leads v _ (operand_leads Hdiv ltac:(rewrite !app_length; cbn [length]; lia))).
      rewrite ev_div, Hz, ev_pex_firstn. destruct fs; [|discriminate]. cbn [obind]. rewrite !bind_assoc.
      destruct (product c (nums all) j); cbn [obind]; try reflexivity. rewrite ?bind_assoc. destruct (udiv z a); cbn [obind]; try reflexivity.
      destruct (k_from (impl_of t) a0); reflexivity.
    - rewrite rems_cons. cbn [zip_from eval_literal].
      replace ([KOpen] ++ value ++ [KClose; KWrappingDiv; KOpen] ++ ptoks (firstn j all) ++ [KClose] ++ [KWrappingRem; KOpen; KNv (Some t); KClose])
        with ((([KOpen] ++ value ++ [KClose]) ++ [KWrappingDiv; KOpen] ++ ptoks (firstn j all) ++ [KClose]) ++ [KWrappingRem; KOpen] ++ [KNv (Some t)] ++ [KClose])
        by (rewrite <- !app_assoc; reflexivity).
      pose proof (operand_rem Hdiv (leads_tok (operand_nv (Some t)))) as Hrem.
      rewrite (run_leads v _ (operand_leads Hrem ltac:(rewrite !app_length; cbn [length]; lia))).
      rewrite ev_rem, ev_div, Hz, ev_pex_firstn. cbn [obind]. rewrite !bind_assoc.
      destruct (product c (nums all) j) as [pj| | |]; cbn [obind]; try reflexivity. rewrite ?bind_assoc. destruct (udiv z pj) as [q| | |]; cbn [obind map]; try reflexivity.
      change (ev v (fun _ => None) (ENv (Some t))) with (Ret (num_variants (impl_of t))). cbn [obind]. rewrite ?bind_assoc.
      destruct (urem q (num_variants (impl_of t))) as [r| | |]; cbn [obind]; try reflexivity. destruct (k_from (impl_of t) r) as [x| | |]; cbn [obind]; try reflexivity.
      rewrite IH; [|discriminate|exact Hl]. cbn [map]. rewrite !bind_assoc. destruct (from_fields c _ (S j) z _); reflexivity.
  Qed.
  Lemma from_fields_length nms l : forall j z vs, from_fields c nms j z l = Ret vs -> length vs = length l.
  Proof.
    clear. induction l as [|k l IH]; intros j z vs H; cbn in H; [injection H as <-; reflexivity|].
    destruct (product c nms j); cbn in H; try discriminate. destruct (udiv z a); cbn in H; try discriminate.
    destruct (match l with [] => Ret a0 | _ => urem a0 (num_variants k) end); cbn in H; try discriminate. destruct (k_from k a1); cbn in H; try discriminate.
    destruct (from_fields c nms (S j) z l) as [r| | |] eqn:Hr; cbn in H; try discriminate. injection H as <-. cbn. rewrite (IH _ _ _ Hr). reflexivity.
  Qed.
  Lemma from_body_ok names ts value ve p z v : NoDup names -> length names = length ts -> ts <> [] ->
    leads p value ve -> ev v (fun _ => None) ve = Ret z ->
    (let! r := eval_literal c impl_of v (from_discr_body names ts value) in gather names r) = from_fields c (nums ts) 0 z (ks ts).
  Proof.
    intros Hn Hl Hne Hval Hz. unfold from_discr_body. rewrite (nvp_ptoks Hne), (@zip_from_ok ts _ _ _ _ _ Hval Hz ts Hne 0%nat names Hl). rewrite bind_assoc.
    destruct (from_fields c (nums ts) 0 z (ks ts)) as [vs| | |] eqn:Hvs; cbn [obind]; try reflexivity.
    apply gather_combine; [exact Hn|]. rewrite (from_fields_length Hvs), map_length. exact Hl.
  Qed.

  (** constants *)
  Lemma const_chain l : forall e, const_eval c impl_of (fold_left (fun e t => EBin OMul e (ENv (Some t))) l e) =
    fold_left (cmul c) (map k_nv (ks l)) (const_eval c impl_of e).
  Proof. induction l as [|t l IH]; intros e; [reflexivity|]. cbn [fold_left map]. rewrite IH. reflexivity. Qed.
  Lemma cfit_small n : n <= 3 -> cfit c n = Some n.
  Proof. intros H. pose proof (usize_ge1 Hbits). unfold cfit. rewrite (proj2 (N.leb_le _ _)) by lia. reflexivity. Qed.
  Lemma const_pex l : const_eval c impl_of (pex l) = total_nv c (ks l).
  Proof. destruct l as [|t l]; [cbn; apply cfit_small; lia|]. cbn [pex]. rewrite const_chain. reflexivity. Qed.
  Lemma total_fits l n : total_nv c (ks l) = Some n -> n <= usize_max c.
  Proof.
    destruct l as [|t l]; cbn [map total_nv]; intros H.
    - injection H as <-. pose proof (usize_ge1 Hbits). lia.
    - apply (cmul_fold_Some Hbits) in H. destruct H as [x [ns [Hx [_ [-> [H | ->]]]]]]; [exact H|]. apply Hfit in Hx. cbn. lia.
  Qed.
End Compute.
