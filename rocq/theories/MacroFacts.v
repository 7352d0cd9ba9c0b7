(** MacroFacts.v -- the tokens emitted by #[derive(EnumLike)] (Derive.v) parse, with
    Rust's precedences, to the intended expressions, and these compute what the
    combinators of EnumLike.v compute. *)
From Verif Require Export Derive EnumFacts.
From Coq Require Import ZifyBool ZifyNat ZifyN.
Open Scope N_scope.
Set Implicit Arguments.
Unset Strict Implicit.

(** ** Parsing *)
Section ParseFacts.
  Context {A : Type}.
  Local Notation toks := (list (tok A)).
  Local Open Scope nat_scope.

  Definition no_method (ts : toks) : Prop :=
    match ts with KWrappingDiv :: _ | KWrappingRem :: _ => False | _ => True end.
  (** what may follow an expression whose operators have precedence at least p *)
  Definition follows (p : nat) (ts : toks) : Prop :=
    no_method ts /\ match ts with t :: _ => match binop_of t with Some o => prec o <= p | None => True end | [] => True end.
  Definition operand (ts : toks) (e : ex A) : Prop :=
    exists j, j <= length ts /\ forall f rest, 3 * length ts <= f -> parse_operand f (ts ++ rest) = methods (f - j) e rest.
  Definition leads (p : nat) (ts : toks) (e : ex A) : Prop :=
    exists k, 1 <= k <= length ts /\ forall f q rest, 3 * length ts + 2 <= f -> q <= p -> follows p rest ->
      parse f q (ts ++ rest) = climb (f - k) q e rest.

  Lemma follows_le p q ts : p <= q -> follows p ts -> follows q ts.
  Proof.
    intros H [H1 H2]. split; [exact H1|]. destruct ts as [|t ts]; [exact I|]. destruct (binop_of t); [lia|exact I].
  Qed.
  Lemma leads_le p q ts e : q <= p -> leads p ts e -> leads q ts e.
  Proof.
    intros H [k [Hk G]]. exists k. split; [exact Hk|]. intros f r rest Hf Hr Hx. apply G; [exact Hf|lia|]. apply (follows_le H Hx).
  Qed.
  Lemma methods_stop f (e : ex A) ts : 1 <= f -> no_method ts -> methods f e ts = Some (e, ts).
  Proof. intros Hf H. destruct f; [lia|]. destruct ts as [|[]]; cbn in H |- *; try reflexivity; contradiction. Qed.
  Lemma climb_stop f p q (e : ex A) ts : 1 <= f -> follows p ts -> p < q -> climb f q e ts = Some (e, ts).
  Proof.
    intros Hf [_ H] Hp. destruct f; [lia|]. destruct ts as [|t ts]; [reflexivity|]. cbn [climb]. destruct (binop_of t) as [o|]; [|reflexivity].
    rewrite (proj2 (Nat.leb_gt q (prec o))) by lia. reflexivity.
  Qed.
  Lemma climb_nil f q (e : ex A) (ts : toks) : 1 <= f -> match ts with t :: _ => binop_of t = None | [] => True end -> climb f q e ts = Some (e, ts).
  Proof. intros Hf H. destruct f; [lia|]. destruct ts as [|t ts]; [reflexivity|]. cbn [climb]. rewrite H. reflexivity. Qed.

  Lemma operand_lit n : operand [KLit n] (ELit n).
  Proof. exists 1. split; [cbn; lia|]. intros f rest Hf. cbn in Hf. destruct f; [lia|]. cbn. rewrite Nat.sub_0_r. reflexivity. Qed.
  Lemma operand_value : operand [KValue] EValue.
  Proof. exists 1. split; [cbn; lia|]. intros f rest Hf. cbn in Hf. destruct f; [lia|]. cbn. rewrite Nat.sub_0_r. reflexivity. Qed.
  Lemma operand_nv t : operand [KNv t] (ENv t).
  Proof. exists 1. split; [cbn; lia|]. intros f rest Hf. cbn in Hf. destruct f; [lia|]. cbn. rewrite Nat.sub_0_r. reflexivity. Qed.
  Lemma operand_to t x : operand [KToDiscr t x] (EToDiscr t x).
  Proof. exists 1. split; [cbn; lia|]. intros f rest Hf. cbn in Hf. destruct f; [lia|]. cbn. rewrite Nat.sub_0_r. reflexivity. Qed.

  Lemma inside p ts e f rest : leads p ts e -> 3 * length ts + 2 <= f ->
    parse f 0 (ts ++ KClose :: rest) = Some (e, KClose :: rest).
  Proof.
    intros [k [Hk G]] Hf. rewrite G; [|exact Hf|lia|split; exact I]. apply climb_nil; [lia|reflexivity].
  Qed.
  Lemma operand_paren p ts e : leads p ts e -> operand ([KOpen] ++ ts ++ [KClose]) e.
  Proof.
    intros H. exists 1. rewrite !app_length. cbn [length]. split; [lia|]. intros f rest Hf. destruct f; [lia|].
    rewrite <- !app_assoc. cbn [app parse_operand]. rewrite (inside rest H) by lia. cbn [Nat.sub]. rewrite Nat.sub_0_r. reflexivity.
  Qed.
  Lemma operand_div p ts0 e0 ts e : operand ts0 e0 -> leads p ts e ->
    operand (ts0 ++ [KWrappingDiv; KOpen] ++ ts ++ [KClose]) (EWrappingDiv e0 e).
  Proof.
    intros [j [Hj G]] H. exists (j + 1). rewrite !app_length. cbn [length]. split; [lia|]. intros f rest Hf.
    rewrite <- !app_assoc. rewrite G by lia. remember (f - j) as g eqn:Hg. destruct g; [lia|]. cbn [app methods].
    rewrite (inside rest H) by lia. f_equal. lia.
  Qed.
  Lemma operand_rem p ts0 e0 ts e : operand ts0 e0 -> leads p ts e ->
    operand (ts0 ++ [KWrappingRem; KOpen] ++ ts ++ [KClose]) (EWrappingRem e0 e).
  Proof.
    intros [j [Hj G]] H. exists (j + 1). rewrite !app_length. cbn [length]. split; [lia|]. intros f rest Hf.
    rewrite <- !app_assoc. rewrite G by lia. remember (f - j) as g eqn:Hg. destruct g; [lia|]. cbn [app methods].
    rewrite (inside rest H) by lia. f_equal. lia.
  Qed.
  Lemma operand_leads ts e : operand ts e -> 1 <= length ts -> leads 5 ts e.
  Proof.
    intros [j [Hj G]] Hl. exists 1. split; [lia|]. intros f q rest Hf Hq [Hm Hx]. destruct f; [lia|]. cbn [parse].
    rewrite G by lia. rewrite methods_stop by (exact Hm || lia). cbn [Nat.sub]. rewrite Nat.sub_0_r. reflexivity.
  Qed.
  Lemma leads_bin t o ts0 e0 ts1 e1 : binop_of t = Some o -> leads (prec o) ts0 e0 -> leads (S (prec o)) ts1 e1 ->
    leads (prec o) (ts0 ++ [t] ++ ts1) (EBin o e0 e1).
  Proof.
    intros Ht [k0 [Hk0 G0]] [k1 [Hk1 G1]]. exists (k0 + 1). rewrite !app_length. cbn [length]. split; [lia|]. intros f q rest Hf Hq Hx.
    rewrite <- !app_assoc. rewrite G0; [|lia|exact Hq|].
    2:{ split; [|cbn; rewrite Ht; lia]. destruct t; try discriminate; exact I. }
    remember (f - k0) as g eqn:Hg. destruct g; [lia|]. cbn [app climb]. rewrite Ht, (proj2 (Nat.leb_le _ _)) by exact Hq.
    rewrite G1; [|lia|lia|]. 2:{ eapply follows_le; [|exact Hx]. lia. }
    rewrite (climb_stop (p := prec o)) by (exact Hx || lia). f_equal. lia.
  Qed.
  Lemma leads_parse p ts e : leads p ts e -> parse_all ts = Some e.
  Proof.
    intros [k [Hk G]]. unfold parse_all. rewrite <- (app_nil_r ts) at 2. rewrite G; [|lia|lia|split; exact I].
    rewrite climb_nil by (exact I || lia). reflexivity.
  Qed.
  Lemma leads_tok t e : operand [t] e -> leads 5 [t] e.
  Proof. intros H. apply operand_leads; [exact H|cbn; lia]. Qed.
End ParseFacts.

(** ** The emitted expressions *)
Section Emit.
  Context {A : Type}.
  Local Notation toks := (list (tok A)).

  (** A0::NUM_VARIANTS * A1::NUM_VARIANTS * .. , 1 if there are none *)
  Definition ptoks (l : list A) : toks :=
    match l with
    | [] => [KLit 1]
    | t :: l' => KNv (Some t) :: flat_map (fun t => [KStar; KNv (Some t)]) l'
    end.
  Definition pex (l : list A) : ex A :=
    match l with
    | [] => ELit 1
    | t :: l' => fold_left (fun e t => EBin OMul e (ENv (Some t))) l' (ENv (Some t))
    end.
  Lemma chain_leads (l : list A) : forall ts (e : ex A), leads 4 ts e ->
    leads 4 (ts ++ flat_map (fun t => [KStar; KNv (Some t)]) l) (fold_left (fun e t => EBin OMul e (ENv (Some t))) l e).
  Proof.
    induction l as [|t l IH]; intros ts e H; cbn [flat_map fold_left]; [rewrite app_nil_r; exact H|].
    change ([KStar; KNv (Some t)] ++ flat_map (fun t0 => [KStar; KNv (Some t0)]) l) with ([KStar] ++ [KNv (Some t)] ++ flat_map (fun t0 => [KStar; KNv (Some t0)]) l).
    rewrite (app_assoc [KStar]), app_assoc. apply IH. apply (@leads_bin A KStar OMul); [reflexivity|exact H|].
    apply leads_tok. apply operand_nv.
  Qed.
  Lemma ptoks_leads l : leads 4 (ptoks l) (pex l).
  Proof.
    destruct l as [|t l].
    - eapply leads_le; [|apply leads_tok, operand_lit]. auto.
    - change (ptoks (t :: l)) with ([KNv (Some t)] ++ flat_map (fun t => [KStar; KNv (Some t)]) l). apply chain_leads.
      eapply leads_le; [|apply leads_tok, operand_nv]. auto.
  Qed.
  Lemma nvp_rest_ptoks (l : list A) : forall t l0, nvp_rest (ptoks (t :: l0)) (map Some l) = map (fun i => ptoks (t :: l0 ++ firstn (S i) l)) (seq 0 (length l)).
  Proof.
    induction l as [|s l IH]; intros t l0; [reflexivity|].
    assert (E : ptoks (t :: l0) ++ [KStar; KNv (Some s)] = ptoks (t :: l0 ++ [s])).
    { cbn [ptoks]. rewrite flat_map_app. cbn. reflexivity. }
    cbn [map nvp_rest length seq firstn]. rewrite E. f_equal. rewrite IH, <- seq_shift, map_map. apply map_ext. intros i.
    rewrite <- app_assoc. reflexivity.
  Qed.
  Lemma nvp_app ts s : ts <> [] -> num_variants_product (map Some ts ++ [s]) = map (fun i => ptoks (firstn i ts)) (seq 0 (S (length ts))).
  Proof.
    destruct ts as [|t ts]; [congruence|]. intros _. unfold num_variants_product. cbn [map app].
    destruct (map Some ts ++ [s]) as [|x l] eqn:Hx; [destruct ts; discriminate|]. rewrite <- Hx. cbn [tl]. rewrite removelast_last.
    change [KNv (Some t)] with (ptoks (t :: [])) at 2. rewrite nvp_rest_ptoks. cbn [length seq map firstn app]. do 2 f_equal.
    rewrite <- !seq_shift, !map_map. apply map_ext. intros i. cbn [firstn]. reflexivity.
  Qed.
  Lemma total_ptoks ts : ts <> [] -> total_num_variants_product ts = ptoks ts.
  Proof.
    intros H. unfold total_num_variants_product. rewrite nvp_app by exact H. rewrite seq_S, map_app. cbn [map]. rewrite last_last.
    cbn [Nat.add]. rewrite firstn_all. reflexivity.
  Qed.
  Lemma nvp_ptoks ts : ts <> [] -> num_variants_product (map Some ts) = map (fun i => ptoks (firstn i ts)) (seq 0 (length ts)).
  Proof.
    intros H. destruct (exists_last H) as [l [t ->]]. rewrite map_app. cbn [map]. destruct l as [|a l].
    - reflexivity.
    - rewrite nvp_app by discriminate. rewrite app_length. cbn [length]. rewrite Nat.add_1_r. apply map_ext_in. intros i Hi. apply in_seq in Hi.
      rewrite firstn_app. replace (i - length (a :: l))%nat with O by (cbn [length]; lia). cbn [firstn]. rewrite app_nil_r. reflexivity.
  Qed.
End Emit.
