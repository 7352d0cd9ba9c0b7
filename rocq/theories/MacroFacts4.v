(** MacroFacts4.v -- NUM_VARIANTS of enums, and the impl of a whole declaration. *)
From Coq Require Import ZifyBool ZifyNat ZifyN String FinFun.
From Verif Require Export MacroFacts3.
From Verif Require Import SparseFacts DeriveFacts.
From Coq Require Import List.
Close Scope string_scope.
Open Scope N_scope.
Set Implicit Arguments.
Unset Strict Implicit.

Section Total.
  Variable c : cfg.
  Hypothesis Hbits : 2 <= usize_bits c.
  Context {A : Type}.
  Variable impl_of : A -> code.
  Hypothesis Hfit : forall t m, k_nv (impl_of t) = Some m -> m <= usize_max c.
  Local Notation ks ts := (map impl_of ts).
  Local Notation vcodes := (vcodes impl_of).

  (** ** NUM_VARIANTS *)
  Lemma sum_tokens (l : list (list A)) ts : flat_map (fun ts => ptoks ts ++ [KPlus]) (ts :: l) ++ [KLit 0] = (ptoks ts ++ sums l) ++ [KPlus] ++ [KLit 0].
  Proof.
    cbn [flat_map]. rewrite <- !app_assoc. f_equal. revert ts. induction l as [|t l IH]; intros ts; [reflexivity|].
    cbn [flat_map sums]. fold (sums l). rewrite <- !app_assoc. cbn [app]. do 2 f_equal. exact (IH ts).
  Qed.
  Lemma const_sumx l : forall ae, const_eval c impl_of (sumx l ae) = fold_left (cadd c) (map (fun ts => total_nv c (ks ts)) l) (const_eval c impl_of ae).
  Proof.
    induction l as [|ts l IH]; intros ae; cbn [sumx fold_left map]; [reflexivity|]. unfold sumx in IH. rewrite IH. cbn [const_eval].
    rewrite (const_pex Hbits Hfit). reflexivity.
  Qed.
  Lemma cadd_zero x : (forall m, x = Some m -> m <= usize_max c) -> cadd c (Some 0) x = x.
  Proof. destruct x as [m|]; intros H; [|reflexivity]. cbn. unfold cfit. rewrite (proj2 (N.leb_le _ _)); [reflexivity|]. specialize (H m eq_refl). lia. Qed.
  Lemma sum_const (l : list (list A)) ts : const_run c impl_of (flat_map (fun ts => ptoks ts ++ [KPlus]) (ts :: l) ++ [KLit 0]) =
    cadd c (fold_left (cadd c) (map (fun ts => total_nv c (ks ts)) (ts :: l)) (Some 0)) (Some 0).
  Proof.
    rewrite sum_tokens. unfold const_run.
    assert (L : leads 3 ((ptoks ts ++ sums l) ++ [KPlus] ++ [KLit 0]) (EBin OAdd (sumx l (pex ts)) (ELit 0))).
    { apply (@leads_bin A KPlus OAdd); [reflexivity| |].
      - apply sums_leads. apply (@leads_le A 4); [cbn; lia|]. apply ptoks_leads.
      - apply (@leads_le A 5); [cbn; lia|]. apply leads_tok, operand_lit. }
    rewrite (leads_parse L). cbn [const_eval]. rewrite const_sumx, (const_pex Hbits Hfit), (cfit_small Hbits Hfit) by lia. cbn [map fold_left].
    rewrite cadd_zero; [reflexivity|]. exact (total_fits Hbits Hfit (l := ts)).
  Qed.
  Lemma ones n : forall m, fold_left (cadd c) (repeat (Some 1) n) (cfit c m) = cfit c (m + N.of_nat n).
  Proof.
    induction n as [|n IH]; intros m; cbn [repeat fold_left]; [f_equal; lia|].
    replace (cadd c (cfit c m) (Some 1)) with (cfit c (m + 1)); [rewrite IH; f_equal; lia|].
    unfold cfit at 2. destruct (N.leb_spec m (usize_max c)); cbn; [reflexivity|]. unfold cfit. rewrite (proj2 (N.leb_gt _ _)) by lia. reflexivity.
  Qed.

  (** the token lists printed for the arms *)
  Lemma uarms_nv (vs : list (variant A)) : forall d, map (@print_num_variants A) (uarms d vs) = map ptoks (repeat [] (length (uarms d vs))).
  Proof.
    induction vs as [|[n [|l|l]] vs IH]; intros d; cbn [uarms]; auto. cbn [map length repeat]. rewrite IH. reflexivity.
  Qed.
  Fixpoint data_types (vs : list (variant A)) : list (list A) :=
    match vs with
    | [] => []
    | (_, f) :: vs' => match types_of f with Some ts => ts :: data_types vs' | None => data_types vs' end
    end.
  Definition printable (vs : list (variant A)) : Prop := accepted (DEnum vs).
  Lemma data_arms_Some (vs : list (variant A)) off : forall rh, (printable vs -> exists arms, data_arms vs off rh = Some arms) /\
    (forall arms, data_arms vs off rh = Some arms -> printable vs /\ map (@print_num_variants A) arms = map ptoks (data_types vs)).
  Proof.
    induction vs as [|[name fu] vs IH]; intros rh.
    - split; [intros _; exists []; reflexivity|]. intros arms E. cbn in E. injection E as <-. split; [constructor|reflexivity].
    - destruct (types_of fu) as [[|t0 ts0]|] eqn:Hts.
      + split.
        * intros H. inversion H as [|v l Hv Hl]. cbn in Hv. congruence.
        * intros arms E. destruct fu as [|[|]|[|]]; discriminate.
      + assert (Hne : t0 :: ts0 <> []) by discriminate. remember (t0 :: ts0) as ts eqn:Ets.
        rewrite (@data_arms_step c Hbits A impl_of Hfit name fu ts vs off rh Hts Hne).
        destruct (IH (rh ++ [KPlus] ++ ptoks ts)) as [H1 H2]. split.
        * intros H. inversion H as [|v l Hv Hl]; subst v l. destruct (H1 Hl) as [arms Ha]. rewrite Ha. eexists. reflexivity.
        * intros arms E. destruct (data_arms vs off (rh ++ [KPlus] ++ ptoks ts)) as [arms'|]; [|discriminate]. injection E as <-.
          destruct (H2 _ eq_refl) as [P Em]. split; [constructor; [cbn; congruence|exact P]|].
          cbn [data_types map]. rewrite Hts. cbn [map]. rewrite Em. f_equal. unfold print_num_variants. cbn [a_data_fields a_type_names].
          destruct (N.eqb_spec (lenN (names_of fu)) 0) as [Ez|Ez]; [|apply (total_ptoks Hne)].
          exfalso. unfold lenN in Ez. rewrite (names_length Hts), Ets in Ez. discriminate Ez.
      + destruct fu; try discriminate. cbn [data_arms data_types types_of]. destruct (IH rh) as [H1 H2]. split.
        * intros H. inversion H; subst. auto.
        * intros arms E. destruct (H2 _ E) as [P Em]. split; [|exact Em]. constructor; [discriminate|exact P].
  Qed.
  Lemma data_types_ids (vs : list (variant A)) : forall k, map (fun ts => ks ts) (data_types vs) = map snd (data_ids k (vcodes vs)).
  Proof.
    induction vs as [|[n f] vs IH]; intros k; [reflexivity|]. rewrite vcodes_cons. cbn [data_types]. destruct (types_of f) as [ts|]; cbn [option_map data_ids map snd]; [f_equal|]; apply IH.
  Qed.
  Lemma arm_total (vs : list (variant A)) : printable vs -> forall k,
    map (fun ts => total_nv c (ks ts)) (data_types vs) = map (fun a => arm_nv c (snd a)) (data_ids k (vcodes vs)).
  Proof.
    induction 1 as [|[n f] vs Hv Hvs IH]; intros k; [reflexivity|].
    change (vcodes ((n, f) :: vs)) with (option_map (map impl_of) (types_of f) :: vcodes vs). cbn [data_types]. cbn [snd] in Hv.
    destruct (types_of f) as [[|t ts]|]; cbn [option_map data_ids map snd]; [congruence|f_equal|]; apply IH.
  Qed.

  Lemma flat_map_map X Y Z (g : X -> Y) (h : Y -> list Z) l : flat_map h (map g l) = flat_map (fun x => h (g x)) l.
  Proof. induction l as [|x l IH]; cbn; [reflexivity|rewrite IH; reflexivity]. Qed.
  Lemma rusty_nv (vs : list (variant A)) arms : forallb (@is_unit_variant A) vs = false -> all_variants_of vs = Some arms ->
    const_run c impl_of (flat_map (fun e => print_num_variants e ++ [KPlus]) arms ++ [KLit 0]) = k_nv (rusty_enum_code c (vcodes vs)).
  Proof.
    intros Hnu Ha. unfold all_variants_of in Ha. rewrite unit_arms_uarms in Ha. cbn [app] in Ha. change (lenN []) with 0 in Ha.
    destruct (data_arms vs (lenN (uarms 0 vs)) [KLit 0]) as [da|] eqn:Hd; [|discriminate]. injection Ha as <-.
    destruct (proj2 (data_arms_Some vs (lenN (uarms 0 vs)) [KLit 0]) _ Hd) as [P Em].
    replace (flat_map (fun e : match_arm A => print_num_variants e ++ [KPlus]) (uarms 0 vs ++ da))
      with (flat_map (fun ts => ptoks ts ++ [KPlus]) (repeat [] (length (uarms 0 vs)) ++ data_types vs)).
    2:{ rewrite <- (flat_map_map ptoks (fun p => p ++ [KPlus])), map_app, <- uarms_nv, <- Em, <- map_app. apply flat_map_map. }
    assert (E : exists ts l, repeat [] (length (uarms 0 vs)) ++ data_types vs = ts :: l).
    { destruct (repeat [] (length (uarms 0 vs)) ++ data_types vs) as [|ts l] eqn:Hl; [|eauto]. exfalso. apply app_eq_nil in Hl. destruct Hl as [_ Hl].
      clear - Hnu Hl. induction vs as [|[n f] vs IH]; [discriminate|]. cbn [data_types forallb] in *. destruct f; cbn in *; [auto|discriminate|discriminate]. }
    destruct E as [ts [l E]]. rewrite E, sum_const, <- E. cbn [rusty_enum_code k_nv]. rewrite map_app, map_repeat, fold_left_app. cbn [map total_nv].
    replace (Some 0) with (cfit c 0) at 1 by (apply (cfit_small Hbits Hfit); lia). rewrite ones, (arm_total P 0). do 3 f_equal.
    rewrite <- (uarms_length Hbits Hfit vs 0 0). unfold lenN. lia.
  Qed.

  (** ** Enums *)
  Lemma all_sized_of data x n : fold_left (cadd c) (map (fun a => arm_nv c (snd a)) data) x = Some n -> all_sized c data /\
    exists u, x = Some u /\ n = u + total_size c data /\ (u <= usize_max c -> n <= usize_max c).
  Proof.
    intros H. apply (cadd_fold_Some Hbits) in H. destruct H as [u [ns [Hu [Hns [Hn Hm]]]]].
    assert (G : all_sized c data /\ total_size c data = fold_right N.add 0 ns).
    { clear - Hns. revert ns Hns. induction data as [|a data IH]; intros [|m ns] Hns; try discriminate.
      - split; [constructor|reflexivity].
      - cbn [map] in Hns. injection Hns as Ha Hns. destruct (IH _ Hns) as [G1 G2]. split; [constructor; [eauto|exact G1]|].
        unfold total_size in *. cbn [map fold_right]. rewrite G2. f_equal. unfold size_or_0. rewrite Ha. reflexivity. }
    destruct G as [G1 G2]. split; [exact G1|]. exists u. split; [exact Hu|]. rewrite G2. split; [exact Hn|]. intros Hle.
    destruct Hm as [Hm|Hm]; [exact Hm|]. subst ns. cbn in Hn. lia.
  Qed.

  Theorem rusty_ok (vs : list (variant A)) g n : NoDup (map fst vs) -> Forall (fun v : variant A => named_ok (snd v)) vs ->
    generate_rusty_enum_code vs = Some g -> k_nv (rusty_enum_code c (vcodes vs)) = Some n ->
    (forall x, k_from (impl_code c impl_of (DEnum vs) g) x = k_from (rusty_enum_code c (vcodes vs)) x) /\
    (forall k xs, (forall v ts, nth_error vs k = Some v -> types_of (snd v) = Some ts -> length xs = length ts) ->
      k_to (impl_code c impl_of (DEnum vs) g) (VVariant k xs) = k_to (rusty_enum_code c (vcodes vs)) (VVariant k xs)).
  Proof.
    intros Hn Hf Hg Hk. unfold generate_rusty_enum_code, all_variants_of in Hg. rewrite unit_arms_uarms in Hg. cbn [app] in Hg. change (lenN []) with 0 in Hg.
    destruct (data_arms vs (lenN (uarms 0 vs)) [KLit 0]) as [da|] eqn:Hd; [|discriminate]. cbn [option_map] in Hg. injection Hg as <-.
    assert (Hoff : lenN (uarms 0 vs) = lenN (unit_ids 0 (vcodes vs))) by apply (uarms_length Hbits Hfit).
    rewrite Hoff in Hd. cbn [rusty_enum_code k_nv] in Hk. apply cadd_Some in Hk. destruct Hk as [m [z [Hm [_ [_ _]]]]].
    apply all_sized_of in Hm. destruct Hm as [Hs [u [Hu [Em Hle]]]]. apply cfit_Some in Hu. destruct Hu as [-> Hu]. specialize (Hle Hu).
    split.
    - intros x. cbn [impl_code k_from i_from decl_variants rusty_enum_code]. rewrite map_app.
      rewrite (units_from Hbits Hfit Hn (map (@print_from_discr A) da) (pre := []) (d := 0)); [|reflexivity|lia]. rewrite N.sub_0_r.
      cbn [Datatypes.length]. destruct (nthN (unit_ids 0 (vcodes vs)) x); [reflexivity|].
      exact (data_from_ok Hbits Hfit Hn x (pre := []) (dn := []) (ns := []) eq_refl Hf Hd ltac:(constructor) Hs ltac:(cbn [fold_right length]; lia)).
    - intros k xs Hsh. cbn [impl_code k_to i_to decl_variants rusty_enum_code]. rewrite map_app.
      rewrite (units_to Hbits Hfit Hn k xs (map (@print_to_discr A) da) (pre := []) 0 eq_refl). cbn [length].
      destruct (position k (unit_ids 0 (vcodes vs))) as [i|]; [reflexivity|].
      exact (data_to_ok Hbits Hfit Hn (pre := []) (dn := []) (ns := []) eq_refl Hf Hd ltac:(constructor) Hs ltac:(cbn [fold_right length]; lia) Hsh).
  Qed.
  Theorem c_ok (vs : list (variant A)) : NoDup (map fst vs) -> forallb (@is_unit_variant A) vs = true ->
    k_nv (impl_code c impl_of (DEnum vs) (generate_c_enum_code vs)) = k_nv (c_enum_code c (length vs)) /\
    (forall x, k_from (impl_code c impl_of (DEnum vs) (generate_c_enum_code vs)) x = k_from (c_enum_code c (length vs)) x) /\
    (forall k xs, k_to (impl_code c impl_of (DEnum vs) (generate_c_enum_code vs)) (VVariant k xs) = k_to (c_enum_code c (length vs)) (VVariant k xs)).
  Proof.
    intros Hn Hu. split; [|split].
    - reflexivity.
    - intros x. exact (c_from Hbits Hfit Hn (pre := []) (vs := vs) eq_refl Hu (N.le_0_l x)).
    - intros k xs. pose proof (c_to Hbits impl_of Hn xs (pre := []) (vs := vs) eq_refl (Nat.le_0_l k)) as H. cbn [length Nat.add seq] in H.
      destruct xs; exact H.
  Qed.

  (** ** Declarations *)
  Definition code_of_decl (d : decl A) : code :=
    match d with
    | DStruct f => struct_code c (ks (field_types f))
    | DEnum vs => enum_code c (vcodes vs)
    | DUnion _ => mkCode None (fun _ => ill_typed) (fun _ => ill_typed)
    end.
  (** A value with the shape of the declaration. *)
  Definition shaped (d : decl A) (v : val) : Prop :=
    match d, v with
    | DStruct f, VSeq xs => length xs = length (field_types f)
    | DEnum vs, VVariant k xs => forall w, nth_error vs k = Some w -> length xs = length (field_types (snd w))
    | _, _ => False
    end.
  Theorem derive_ok d g : well_named d -> derive_enum_like d = Some g ->
    k_nv (impl_code c impl_of d g) = k_nv (code_of_decl d) /\
    forall n, k_nv (code_of_decl d) = Some n ->
    (forall x, k_from (impl_code c impl_of d g) x = k_from (code_of_decl d) x) /\
    (forall v, shaped d v -> k_to (impl_code c impl_of d g) v = k_to (code_of_decl d) v).
  Proof.
    intros Hw Hd. destruct d as [f|vs|]; [| |discriminate]; cbn [derive_enum_like code_of_decl] in *.
    - injection Hd as <-. split; [apply (struct_nv Hbits Hfit)|]. intros n _. split; [intros x; apply (struct_from Hbits Hfit); exact Hw|].
      intros [] Hv; try contradiction. apply (struct_to Hbits Hfit); [exact Hw|exact Hv].
    - destruct Hw as [Hn Hf]. unfold generate_enum_code in Hd. unfold enum_code. rewrite <- (unit_all impl_of vs).
      destruct (forallb (@is_unit_variant A) vs) eqn:Hu.
      + injection Hd as <-. destruct (c_ok Hn Hu) as [H1 [H2 H3]]. replace (length (vcodes vs)) with (length vs) by (unfold MacroFacts3.vcodes; rewrite map_length; reflexivity).
        split; [exact H1|]. intros n _. split; [exact H2|]. intros [] Hv; try contradiction. apply H3.
      + split.
        * pose proof Hd as Hd'. unfold generate_rusty_enum_code in Hd'. destruct (all_variants_of vs) as [arms|] eqn:Ha; [|discriminate]. injection Hd' as <-.
          exact (rusty_nv Hu Ha).
        * intros n Hk. destruct (rusty_ok Hn Hf Hd Hk) as [H1 H2]. split; [exact H1|]. intros [] Hv; try contradiction. apply H2.
          intros v ts Hv1 Hv2. specialize (Hv _ Hv1). unfold field_types in Hv. rewrite Hv2 in Hv. exact Hv.
  Qed.
  Theorem derive_some (d : decl A) : (exists g, derive_enum_like d = Some g) <-> accepted d.
  Proof.
    destruct d as [f|vs|]; cbn [derive_enum_like].
    - split; [intros _; exact I|intros _; eexists; reflexivity].
    - unfold generate_enum_code. destruct (forallb (@is_unit_variant A) vs) eqn:Hu.
      + split; [intros _|eauto]. unfold printable. apply Forall_forall. intros [n f] Hin. rewrite forallb_forall in Hu. apply Hu in Hin. destruct f; try discriminate Hin. discriminate.
      + unfold generate_rusty_enum_code, all_variants_of. destruct (data_arms_Some vs (lenN (unit_arms vs [])) [KLit 0]) as [H1 H2].
        destruct (data_arms vs (lenN (unit_arms vs [])) [KLit 0]) as [da|]; cbn [option_map].
        * split; [intros _; exact (proj1 (H2 _ eq_refl))|eauto].
        * split; [intros [g Hg]; discriminate|]. intros P. destruct (H1 P) as [arms E]. discriminate E.
    - split; [intros [g Hg]; discriminate|contradiction].
  Qed.
End Total.
