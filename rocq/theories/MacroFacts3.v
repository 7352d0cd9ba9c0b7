(** MacroFacts3.v -- the impl emitted for structs and enums denotes struct_code / enum_code. *)
From Coq Require Import ZifyBool ZifyNat ZifyN String FinFun.
From Verif Require Export MacroFacts2.
From Coq Require Import List.
Close Scope string_scope.
Open Scope N_scope.
Set Implicit Arguments.
Unset Strict Implicit.

Lemma names_nodup A (f : fields A) : named_ok f -> NoDup (names_of f).
Proof.
  destruct f as [|l|l]; cbn; intros H; [constructor| |].
  - apply Injective_map_NoDup; [intros i j E; congruence|apply seq_NoDup].
  - rewrite <- (map_map fst FName). apply Injective_map_NoDup; [intros i j E; congruence|exact H].
Qed.
Lemma names_length A (f : fields A) ts : types_of f = Some ts -> length (names_of f) = length ts.
Proof. destruct f as [|l|l]; cbn; intros H; [discriminate| |]; injection H as <-; rewrite !map_length, ?seq_length; reflexivity. Qed.
Lemma idents_types A (f : fields A) ts : types_of f = Some ts -> field_idents f = (names_of f, ts).
Proof. destruct f; cbn; intros H; [discriminate| |]; injection H as <-; reflexivity. Qed.

Section Impl.
  Variable c : cfg.
  Hypothesis Hbits : 2 <= usize_bits c.
  Context {A : Type}.
  Variable impl_of : A -> code.
  Hypothesis Hfit : forall t m, k_nv (impl_of t) = Some m -> m <= usize_max c.
  Local Notation ks ts := (map impl_of ts).
  Local Notation nums ts := (map num_variants (map impl_of ts)).
  Local Notation ev := (ev c impl_of).

  (** ** Structs *)
  Lemma self_env_ok names xs : NoDup names -> length names = length xs ->
    Forall2 (fun x y => self_env names xs x = Some y) (map ASelf names) xs.
  Proof.
    intros Hn Hl. apply Forall2_nth; [rewrite map_length; exact Hl|]. intros i x y Hx Hy. rewrite nth_error_map in Hx.
    destruct (nth_error names i) as [f|] eqn:Hf; [|discriminate]. injection Hx as <-. cbn. rewrite (index_nth fname_eqb_eq Hn Hf). exact Hy.
  Qed.
  Lemma struct_cases (f : fields A) : (field_types f = [] /\ generate_struct_code f = generate_unit_struct_impl A /\ names_of f = []) \/
    (field_types f <> [] /\ types_of f = Some (field_types f) /\ generate_struct_code f = generate_struct_many_elem (names_of f) (field_types f)).
  Proof.
    destruct f as [|[|t l]|[|[s t] l]]; cbn; auto; right; split; try discriminate; split; reflexivity.
  Qed.
  Lemma struct_nv f : k_nv (impl_code c impl_of (DStruct f) (generate_struct_code f)) = k_nv (struct_code c (ks (field_types f))).
  Proof.
    cbn [impl_code k_nv]. destruct (struct_cases f) as [[E1 [E2 _]]|[E1 [_ E2]]].
    - rewrite E1, E2. cbn. apply (cfit_small Hbits Hfit). lia.
    - rewrite E2. cbn [generate_struct_many_elem i_nv]. rewrite (total_ptoks E1). unfold const_run.
      rewrite (leads_parse (ptoks_leads _)), (const_pex Hbits Hfit). destruct (field_types f); [congruence|reflexivity].
  Qed.
  Lemma struct_to f xs : named_ok f -> length xs = length (field_types f) ->
    k_to (impl_code c impl_of (DStruct f) (generate_struct_code f)) (VSeq xs) = k_to (struct_code c (ks (field_types f))) (VSeq xs).
  Proof.
    intros Hn Hl. cbn [impl_code k_to]. destruct (struct_cases f) as [[E1 [E2 E3]]|[E1 [E3 E2]]].
    - rewrite E1 in *. rewrite E2. destruct xs; [|discriminate]. reflexivity.
    - rewrite E2. cbn [generate_struct_many_elem i_to decl_names].
      assert (Hlen : length (names_of f) = length (field_types f)) by (apply names_length; exact E3).
      rewrite (@to_body_ok c Hbits A impl_of Hfit (names_of f) (field_types f) [KLit 0] (ELit 0) None (map ASelf (names_of f)) E1) with (vs := xs).
      + destruct (field_types f); [congruence|]. reflexivity.
      + apply (@leads_le A 5); [lia|]. apply leads_tok, operand_lit.
      + right. split; reflexivity.
      + rewrite map_length. exact Hlen.
      + apply self_env_ok; [apply names_nodup; exact Hn|congruence].
  Qed.
  Lemma struct_from f x : named_ok f ->
    k_from (impl_code c impl_of (DStruct f) (generate_struct_code f)) x = k_from (struct_code c (ks (field_types f))) x.
  Proof.
    intros Hn. cbn [impl_code k_from]. destruct (struct_cases f) as [[E1 [E2 E3]]|[E1 [E3 E2]]].
    - rewrite E1, E2. reflexivity.
    - rewrite E2. cbn [generate_struct_many_elem i_from decl_names].
      assert (Hlen : length (names_of f) = length (field_types f)) by (apply names_length; exact E3).
      pose proof (@from_body_ok c Hbits A impl_of Hfit (names_of f) (field_types f) [KValue] EValue 5 x x (names_nodup Hn) Hlen E1) as H.
      rewrite <- bind_assoc, H; [|apply leads_tok, operand_value|reflexivity]. destruct (field_types f); [congruence|]. reflexivity.
  Qed.

  (** ** Enums *)
  Definition vcodes (vs : list (variant A)) : list (option (list code)) := map (fun v => option_map (map impl_of) (types_of (snd v))) vs.
  Lemma vcodes_cons n (f : fields A) (vs : list (variant A)) : vcodes (@cons (variant A) (n, f) vs) = option_map (map impl_of) (types_of f) :: vcodes vs.
  Proof. reflexivity. Qed.
  Lemma unit_all vs : forallb (@is_unit_variant A) vs = forallb (fun v => match v with None => true | Some _ => false end) (vcodes vs).
  Proof. induction vs as [|[n [|l|l]] vs IH]; cbn; auto. Qed.

  Section OneEnum.
    Variable all : list (variant A).
    Hypothesis Hnames : NoDup (map fst all).
    Lemma id_of pre v vs : all = pre ++ v :: vs -> variant_id all (fst v) = Some (length pre) /\ nth_error all (length pre) = Some v.
    Proof.
      intros E. assert (Hn : nth_error all (length pre) = Some v).
      { rewrite E, nth_error_app2 by lia. rewrite Nat.sub_diag. reflexivity. }
      split; [|exact Hn]. unfold variant_id. apply (index_nth String.eqb_eq Hnames). apply map_nth_error. exact Hn.
    Qed.

    (** C-like *)
    Lemma c_from x vs : forall pre, all = pre ++ vs -> forallb (@is_unit_variant A) vs = true -> N.of_nat (length pre) <= x ->
      run_from_arms c impl_of all x (map (fun p => FromLit (fst p) (fst (snd p))) (combine (map N.of_nat (seq (length pre) (length vs))) vs)) =
      if x <? N.of_nat (length pre + length vs) then Ret (VVariant (N.to_nat x) []) else Panic PDiscr.
    Proof.
      induction vs as [|v vs IH]; intros pre E Hu Hx.
      - cbn. rewrite (proj2 (N.ltb_ge _ _)) by lia. reflexivity.
      - cbn [length seq map combine run_from_arms fst snd]. cbn in Hu. apply andb_prop in Hu. destruct Hu as [_ Hu].
        destruct (id_of E) as [Hid _]. rewrite Hid. destruct (N.eqb_spec x (N.of_nat (length pre))) as [-> |Hne].
        + rewrite (proj2 (N.ltb_lt _ _)) by lia. rewrite Nat2N.id. reflexivity.
        + specialize (IH (pre ++ [v])). rewrite app_length in IH. cbn [length] in IH. rewrite Nat.add_1_r in IH.
          rewrite IH; [|rewrite <- app_assoc; exact E|exact Hu|lia]. replace (S (length pre) + length vs)%nat with (length pre + S (length vs))%nat by lia. reflexivity.
    Qed.
    Lemma c_to k xs vs : forall pre, all = pre ++ vs -> (length pre <= k)%nat ->
      run_to_arms c impl_of all k xs (map (fun p => ToLit (fst (snd p)) (fst p)) (combine (map N.of_nat (seq (length pre) (length vs))) vs)) =
      match xs with [] => if Nat.ltb k (length pre + length vs) then Ret (N.of_nat k) else ill_typed | _ => ill_typed end.
    Proof.
      induction vs as [|v vs IH]; intros pre E Hk.
      - cbn [length seq map combine run_to_arms]. destruct xs; [|reflexivity]. destruct (Nat.ltb_spec k (length pre + 0)); [lia|reflexivity].
      - cbn [length seq map combine run_to_arms fst snd]. destruct (id_of E) as [Hid _]. rewrite Hid.
        destruct (Nat.eqb_spec k (length pre)) as [-> |Hne].
        + destruct (Nat.ltb_spec (length pre) (length pre + S (length vs))); [destruct xs; reflexivity|lia].
        + specialize (IH (pre ++ [v])). rewrite app_length in IH. cbn [length] in IH. rewrite Nat.add_1_r in IH.
          rewrite IH; [|rewrite <- app_assoc; exact E|lia]. replace (S (length pre) + length vs)%nat with (length pre + S (length vs))%nat by lia. reflexivity.
    Qed.

    (** data-less variants *)
    Fixpoint uarms (d : N) (vs : list (variant A)) : list (match_arm A) :=
      match vs with
      | [] => []
      | (name, Unit) :: vs' => unit_arm A name d :: uarms (d + 1) vs'
      | _ :: vs' => uarms d vs'
      end.
    Lemma unit_arms_uarms vs : forall x, unit_arms vs x = x ++ uarms (lenN x) vs.
    Proof.
      induction vs as [|[n [|l|l]] vs IH]; intros x; cbn [unit_arms uarms]; rewrite ?app_nil_r; auto.
      rewrite IH, <- app_assoc. rewrite lenN_app. reflexivity.
    Qed.
    Lemma uarms_length vs : forall d k, lenN (uarms d vs) = lenN (unit_ids k (vcodes vs)).
    Proof.
      induction vs as [|[n [|l|l]] vs IH]; intros d k; cbn [uarms vcodes map types_of snd option_map unit_ids]; auto; try apply IH.
      specialize (IH (d + 1) (S k)). unfold lenN in *. cbn [length]. unfold vcodes in IH. lia.
    Qed.
    Lemma units_from x rest vs : forall pre d, all = pre ++ vs -> d <= x ->
      run_from_arms c impl_of all x (map (@print_from_discr A) (uarms d vs) ++ rest) =
      match nthN (unit_ids (length pre) (vcodes vs)) (x - d) with Some k => Ret (VVariant k []) | None => run_from_arms c impl_of all x rest end.
    Proof.
      induction vs as [|[n f] vs IH]; intros pre d E Hd.
      - cbn. unfold nthN. destruct (N.to_nat (x - d)); reflexivity.
      - assert (IH' : forall d', d' <= x -> run_from_arms c impl_of all x (map (@print_from_discr A) (uarms d' vs) ++ rest) =
          match nthN (unit_ids (S (length pre)) (vcodes vs)) (x - d') with Some k => Ret (VVariant k []) | None => run_from_arms c impl_of all x rest end).
        { intros d' Hd'. specialize (IH (pre ++ [(n, f)]) d'). rewrite app_length in IH. cbn [length] in IH. rewrite Nat.add_1_r in IH. apply IH; [rewrite <- app_assoc; exact E|exact Hd']. }
        destruct f as [|l|l]; cbn [uarms vcodes map types_of snd option_map unit_ids]; try (apply IH'; exact Hd).
        cbn [map app print_from_discr]. change (print_from_discr (unit_arm A n d)) with (@FromLit A d n). cbn [run_from_arms].
        destruct (id_of E) as [Hid _]. cbn [fst] in Hid. rewrite Hid. destruct (N.eqb_spec x d) as [-> |Hne].
        + rewrite N.sub_diag. reflexivity.
        + rewrite IH' by lia. unfold nthN. replace (N.to_nat (x - d)) with (S (N.to_nat (x - (d + 1)))) by lia. reflexivity.
    Qed.
    Lemma units_to k xs rest vs : forall pre d, all = pre ++ vs ->
      run_to_arms c impl_of all k xs (map (@print_to_discr A) (uarms d vs) ++ rest) =
      match position k (unit_ids (length pre) (vcodes vs)) with
      | Some i => match xs with [] => Ret (d + i) | _ => ill_typed end
      | None => run_to_arms c impl_of all k xs rest
      end.
    Proof.
      induction vs as [|[n f] vs IH]; intros pre d E; [reflexivity|].
      assert (IH' : forall d', run_to_arms c impl_of all k xs (map (@print_to_discr A) (uarms d' vs) ++ rest) =
          match position k (unit_ids (S (length pre)) (vcodes vs)) with
          | Some i => match xs with [] => Ret (d' + i) | _ => ill_typed end
          | None => run_to_arms c impl_of all k xs rest end).
      { intros d'. specialize (IH (pre ++ [(n, f)]) d'). rewrite app_length in IH. cbn [length] in IH. rewrite Nat.add_1_r in IH. apply IH. rewrite <- app_assoc; exact E. }
      destruct f as [|l|l]; cbn [uarms vcodes map types_of snd option_map unit_ids]; try apply IH'.
      cbn [map app print_to_discr]. change (print_to_discr (unit_arm A n d)) with (@ToLit A n d). cbn [run_to_arms position].
      destruct (id_of E) as [Hid _]. cbn [fst] in Hid. rewrite Hid. rewrite (Nat.eqb_sym k). destruct (Nat.eqb_spec (length pre) k) as [Hk|Hk].
      - rewrite N.add_0_r. reflexivity.
      - rewrite IH'. fold (vcodes vs). destruct (position k (unit_ids (S (length pre)) (vcodes vs))) as [i|]; cbn [option_map]; [|reflexivity].
        destruct xs; [f_equal; lia|reflexivity].
    Qed.

    (** variants with data *)
    Definition sums (l : list (list A)) : list (tok A) := flat_map (fun ts => [KPlus] ++ ptoks ts) l.
    Definition sumx (l : list (list A)) (e : ex A) : ex A := fold_left (fun e ts => EBin OAdd e (pex ts)) l e.
    Lemma sums_leads l : forall ats ae, leads 3 ats ae -> leads 3 (ats ++ sums l) (sumx l ae).
    Proof.
      induction l as [|ts l IH]; intros ats ae H; cbn [sums flat_map sumx fold_left]; [rewrite app_nil_r; exact H|].
      rewrite app_assoc. apply IH. apply (@leads_bin A KPlus OAdd); [reflexivity|exact H|apply ptoks_leads].
    Qed.
    Definition sized (ts : list A) (n : N) : Prop := arm_nv c (ks ts) = Some n.
    Lemma sized_product ts n : sized ts n -> product c (nums ts) (length ts) = Ret n.
    Proof. intros H. apply (arm_num_ok Hbits) in H. unfold arm_num in H. rewrite map_length in H. exact H. Qed.
    Lemma ev_sums v env l ns : Forall2 sized l ns -> forall ae a, ev v env ae = Ret a -> a + fold_right N.add 0 ns <= usize_max c ->
      ev v env (sumx l ae) = Ret (a + fold_right N.add 0 ns).
    Proof.
      induction 1 as [|ts n l ns Hn H IH]; intros ae a Ha Hs; cbn [sumx fold_left fold_right] in *.
      - rewrite N.add_0_r. exact Ha.
      - rewrite N.add_assoc in *. apply IH; [|exact Hs]. rewrite ev_add, Ha, ev_pex, (sized_product Hn). cbn [obind]. apply uadd_fit. lia.
    Qed.
    Lemma lit_leads n : leads 3 [@KLit A n] (ELit n).
    Proof. apply (@leads_le A 5); [lia|]. apply leads_tok, operand_lit. Qed.
    (** off + range_high *)
    Lemma off_leads off l : leads 3 ([KLit off; KPlus] ++ [KLit 0] ++ sums l) (sumx l (EBin OAdd (ELit off) (ELit 0))).
    Proof.
      rewrite app_assoc. apply sums_leads. change ([KLit off; KPlus] ++ [@KLit A 0]) with ([@KLit A off] ++ [KPlus] ++ [KLit 0]).
      apply (@leads_bin A KPlus OAdd); [reflexivity|apply lit_leads|]. apply (@leads_le A 5); [auto|]. apply leads_tok, operand_lit.
    Qed.
    Lemma ev_off v env off l ns : Forall2 sized l ns -> off + fold_right N.add 0 ns <= usize_max c ->
      ev v env (sumx l (EBin OAdd (ELit off) (ELit 0))) = Ret (off + fold_right N.add 0 ns).
    Proof. intros H Hs. apply (ev_sums H); [|exact Hs]. rewrite ev_add. cbn [obind Verif.MacroFacts2.ev eval to_num]. change (uadd c off 0 = Ret off). rewrite uadd_fit by lia. rewrite N.add_0_r. reflexivity. Qed.
    Lemma rh_leads l : leads 3 ([@KLit A 0] ++ sums l) (sumx l (ELit 0)).
    Proof. apply sums_leads, lit_leads. Qed.
    Lemma ev_rh v env l ns : Forall2 sized l ns -> fold_right N.add 0 ns <= usize_max c ->
      ev v env (sumx l (ELit 0)) = Ret (fold_right N.add 0 ns).
    Proof. intros H Hs. rewrite <- (N.add_0_l (fold_right N.add 0 ns)) at 1. apply (ev_sums H); [reflexivity|lia]. Qed.

    Lemma next_rh name off fs (ts : list A) (rh : list (tok A)) : ts <> [] -> length fs = length ts ->
      print_next_range_high (mkArm name off (lenN fs) fs ts rh) = rh ++ [KPlus] ++ ptoks ts.
    Proof.
      intros Hts Hl. unfold print_next_range_high, print_num_variants. cbn [a_range_high a_data_fields a_type_names].
      destruct (N.eqb_spec (lenN fs) 0) as [E|E]; [|rewrite (total_ptoks Hts); reflexivity].
      exfalso. destruct ts; [congruence|]. destruct fs; [discriminate|]. unfold lenN in E. cbn in E. lia.
    Qed.
    Lemma data_arms_step name (fu : fields A) ts (vs : list (variant A)) off rh : types_of fu = Some ts -> ts <> [] ->
      data_arms (@cons (variant A) (name, fu) vs) off rh =
      option_map (cons (mkArm name off (lenN (names_of fu)) (names_of fu) ts rh)) (data_arms vs off (rh ++ [KPlus] ++ ptoks ts)).
    Proof.
      intros Hf Hts. pose proof (idents_types Hf) as Hi. pose proof (names_length Hf) as Hl.
      rewrite <- (next_rh name off rh Hts Hl).
      destruct fu as [|[|a l]|[|[s a] l]]; cbn in Hf; try discriminate; injection Hf as <-; try congruence; reflexivity.
    Qed.
    Lemma sums_snoc l ts : [@KLit A 0] ++ sums l ++ [KPlus] ++ ptoks ts = [KLit 0] ++ sums (l ++ [ts]).
    Proof. unfold sums. rewrite flat_map_app. cbn [flat_map]. rewrite app_nil_r. reflexivity. Qed.

    Definition size_or_0 (a : nat * list code) : N := match arm_nv c (snd a) with Some n => n | None => 0 end.
    Definition total_size (data : list (nat * list code)) : N := fold_right N.add 0 (map size_or_0 data).
    Definition all_sized (data : list (nat * list code)) : Prop := Forall (fun a => exists n, arm_nv c (snd a) = Some n) data.

    Lemma guard_ok x off l1 ns1 l2 ns2 : Forall2 sized l1 ns1 -> Forall2 sized l2 ns2 ->
      off + fold_right N.add 0 ns1 <= usize_max c -> off + fold_right N.add 0 ns2 <= usize_max c ->
      run_bool c impl_of x (fun _ => None)
        ([KValue; KGe; KOpen; KLit off; KPlus] ++ ([KLit 0] ++ sums l1) ++ [KClose; KAnd] ++
         [KValue; KLt; KOpen; KLit off; KPlus] ++ ([KLit 0] ++ sums l2) ++ [KClose]) =
      Ret ((off + fold_right N.add 0 ns1 <=? x) && (x <? off + fold_right N.add 0 ns2)).
    Proof.
      intros H1 H2 F1 F2.
      pose proof (operand_paren (off_leads off l1)) as P1. pose proof (operand_paren (off_leads off l2)) as P2.
      assert (G : leads 1 ([KValue; KGe; KOpen; KLit off; KPlus] ++ ([KLit 0] ++ sums l1) ++ [KClose; KAnd] ++
         [KValue; KLt; KOpen; KLit off; KPlus] ++ ([KLit 0] ++ sums l2) ++ [KClose])
         (EBin OAnd (EBin OGe EValue (sumx l1 (EBin OAdd (ELit off) (ELit 0)))) (EBin OLt EValue (sumx l2 (EBin OAdd (ELit off) (ELit 0)))))).
      { replace ([KValue; KGe; KOpen; KLit off; KPlus] ++ ([KLit 0] ++ sums l1) ++ [KClose; KAnd] ++ [KValue; KLt; KOpen; KLit off; KPlus] ++ ([KLit 0] ++ sums l2) ++ [KClose])
          with (([@KValue A] ++ [KGe] ++ ([KOpen] ++ ([KLit off; KPlus] ++ [KLit 0] ++ sums l1) ++ [KClose])) ++ [KAnd] ++
                ([KValue] ++ [KLt] ++ ([KOpen] ++ ([KLit off; KPlus] ++ [KLit 0] ++ sums l2) ++ [KClose])))
          by (repeat (rewrite <- !app_assoc; cbn [app]); reflexivity).
        assert (L : forall ts e, operand ts e -> (1 <= length ts)%nat -> leads 3 ts e) by (intros ts e Ho Hl; apply (@leads_le A 5); [lia|apply operand_leads; assumption]).
        apply (@leads_bin A KAnd OAnd); [reflexivity| |].
        - apply (@leads_le A 2); [cbn; lia|]. apply (@leads_bin A KGe OGe); [reflexivity| |].
          + apply (@leads_le A 5); [cbn; lia|]. apply leads_tok, operand_value.
          + apply L; [exact P1|rewrite !app_length; cbn [length]; lia].
        - apply (@leads_bin A KLt OLt); [reflexivity| |].
          + apply (@leads_le A 5); [cbn; lia|]. apply leads_tok, operand_value.
          + apply L; [exact P2|rewrite !app_length; cbn [length]; lia]. }
      unfold run_bool, run. rewrite (leads_parse G).
      pose proof (ev_off x (fun _ => None) H1 F1) as E1. pose proof (ev_off x (fun _ => None) H2 F2) as E2.
      unfold MacroFacts2.ev in E1, E2.
      cbn [eval obind to_num to_bool].
      destruct (eval c impl_of x (fun _ => None) (sumx l1 (EBin OAdd (ELit off) (ELit 0)))) as [[n1|b1]| | |]; try discriminate. cbn in E1. injection E1 as ->.
      destruct (eval c impl_of x (fun _ => None) (sumx l2 (EBin OAdd (ELit off) (ELit 0)))) as [[n2|b2]| | |]; try discriminate. cbn in E2. injection E2 as ->.
      cbn [obind to_num to_bool]. destruct (off + fold_right N.add 0 ns1 <=? x); reflexivity.
    Qed.

    Lemma sum_snoc l n : fold_right N.add 0 (l ++ [n]) = fold_right N.add 0 l + n.
    Proof. induction l as [|x l IH]; cbn; lia. Qed.
    Lemma Forall2_snoc X Y (R : X -> Y -> Prop) l m x y : Forall2 R l m -> R x y -> Forall2 R (l ++ [x]) (m ++ [y]).
    Proof. intros H Hx. apply Forall2_app; [exact H|]. constructor; [exact Hx|constructor]. Qed.

    Lemma data_from_ok x off vs : forall pre dn ns arms, all = pre ++ vs -> Forall (fun v : variant A => named_ok (snd v)) vs ->
      data_arms vs off ([KLit 0] ++ sums dn) = Some arms -> Forall2 sized dn ns ->
      all_sized (data_ids (length pre) (vcodes vs)) ->
      off + fold_right N.add 0 ns + total_size (data_ids (length pre) (vcodes vs)) <= usize_max c ->
      run_from_arms c impl_of all x (map (@print_from_discr A) arms) =
      data_from c off (fold_right N.add 0 ns) (data_ids (length pre) (vcodes vs)) x.
    Proof.
      induction vs as [|[name fu] vs IH]; intros pre dn ns arms E Hnm Ha Hdn Hsz Hsum.
      - cbn in Ha. injection Ha as <-. reflexivity.
      - inversion Hnm as [|v0 vs0 Hfu Hnm']; subst v0 vs0. cbn [snd] in Hfu.
        assert (E' : all = (pre ++ [(name, fu)]) ++ vs) by (rewrite <- app_assoc; exact E).
        assert (Epre : length (pre ++ [(name, fu)]) = S (length pre)) by (rewrite app_length; cbn; lia).
        destruct (types_of fu) as [ts|] eqn:Hts.
        2:{ destruct fu; try discriminate. cbn [vcodes map types_of snd option_map data_ids] in *. cbn [data_arms] in Ha.
            specialize (IH (pre ++ [(name, Unit)]) dn ns arms E' Hnm' Ha Hdn). rewrite Epre in IH. exact (IH Hsz Hsum). }
        assert (Hne : ts <> []) by (intros ->; destruct fu as [|[|]|[|]]; discriminate).
        rewrite (data_arms_step name vs off _ Hts Hne) in Ha. rewrite <- app_assoc, sums_snoc in Ha.
        destruct (data_arms vs off ([KLit 0] ++ sums (dn ++ [ts]))) as [arms'|] eqn:Harms; [|discriminate]. injection Ha as <-.
        rewrite vcodes_cons, Hts in *. cbn [option_map data_ids] in *.
        inversion Hsz as [|a0 data0 [n Hn] Hsz']; subst a0 data0. cbn [snd] in Hn.
        unfold total_size in Hsum. cbn [map fold_right] in Hsum. unfold size_or_0 at 1 in Hsum. cbn [snd] in Hsum. rewrite Hn in Hsum.
        fold (total_size (data_ids (S (length pre)) (vcodes vs))) in Hsum.
        assert (Hdn' : Forall2 sized (dn ++ [ts]) (ns ++ [n])) by (apply Forall2_snoc; assumption).
        specialize (IH (pre ++ [(name, fu)]) (dn ++ [ts]) (ns ++ [n]) arms' E' Hnm' Harms Hdn'). rewrite Epre, sum_snoc in IH.
        specialize (IH Hsz' ltac:(lia)).
        set (R := fold_right N.add 0 ns) in *. cbn [map data_from]. rewrite (arm_num_ok Hbits Hn).
        rewrite (uadd_fit (a := off)) by lia. cbn [obind]. rewrite (uadd_fit (a := R)) by lia. cbn [obind]. rewrite (uadd_fit (a := off) (b := R + n)) by lia. cbn [obind].
        assert (Hl : length (names_of fu) = length ts) by (apply names_length; exact Hts).
        assert (Epf : print_from_discr (mkArm name off (lenN (names_of fu)) (names_of fu) ts ([KLit 0] ++ sums dn)) =
          FromGuard ([KValue; KGe; KOpen; KLit off; KPlus] ++ ([KLit 0] ++ sums dn) ++ [KClose; KAnd] ++ [KValue; KLt; KOpen; KLit off; KPlus] ++ ([KLit 0] ++ sums (dn ++ [ts])) ++ [KClose])
            name (from_discr_body (names_of fu) ts ([KValue; KMinus; KLit off; KMinus; KOpen] ++ ([KLit 0] ++ sums dn) ++ [KClose]))).
        { unfold print_from_discr. rewrite (next_rh name off _ Hne Hl). rewrite <- (app_assoc [KLit 0]), sums_snoc. cbn [a_data_fields a_offset a_range_high a_name a_field_names a_type_names].
          destruct (N.eqb_spec (lenN (names_of fu)) 0) as [Ez|Ez]; [|reflexivity].
          exfalso. apply Hne. unfold lenN in Ez. rewrite Hl in Ez. destruct ts; [reflexivity|discriminate Ez]. }
        change (KLit 0 :: sums dn) with ([@KLit A 0] ++ sums dn). rewrite Epf. cbn [run_from_arms]. rewrite (guard_ok x Hdn Hdn'); [|fold R; lia|rewrite sum_snoc; fold R; lia]. rewrite sum_snoc. fold R. cbn [obind].
        destruct ((off + R <=? x) && (x <? off + (R + n))) eqn:Hg; [|rewrite IH; reflexivity].
        destruct (id_of E) as [Hid Hnth]. cbn [fst] in Hid. rewrite Hid, Hnth.
        apply andb_prop in Hg. destruct Hg as [Hg1 Hg2]. apply N.leb_le in Hg1. apply N.ltb_lt in Hg2.
        rewrite (@usub_fit c x) by lia. cbn [obind]. rewrite (@usub_fit c (x - off)) by lia. cbn [obind].
        assert (Hv : leads 3 ([KValue; KMinus; KLit off; KMinus; KOpen] ++ ([KLit 0] ++ sums dn) ++ [KClose]) (EBin OSub (EBin OSub EValue (ELit off)) (sumx dn (ELit 0)))).
        { replace ([KValue; KMinus; KLit off; KMinus; KOpen] ++ ([KLit 0] ++ sums dn) ++ [KClose])
            with (([@KValue A] ++ [KMinus] ++ [KLit off]) ++ [KMinus] ++ ([KOpen] ++ ([KLit 0] ++ sums dn) ++ [KClose])) by reflexivity.
          apply (@leads_bin A KMinus OSub); [reflexivity| |].
          - apply (@leads_bin A KMinus OSub); [reflexivity| |]; (apply (@leads_le A 5); [cbn; lia|]); apply leads_tok; [apply operand_value|apply operand_lit].
          - apply (@leads_le A 5); [cbn; lia|]. apply operand_leads; [exact (operand_paren (rh_leads dn))|]. rewrite !app_length. cbn [length]. lia. }
        assert (Hz : ev x (fun _ => None) (EBin OSub (EBin OSub EValue (ELit off)) (sumx dn (ELit 0))) = Ret (x - off - R)).
        { rewrite !ev_sub, (ev_rh _ _ Hdn) by (fold R; lia). fold R. change (ev x (fun _ => None) EValue) with (Ret x). change (ev x (fun _ => None) (ELit off)) with (Ret off). cbn [obind].
          rewrite (@usub_fit c x) by lia. cbn [obind]. apply usub_fit. lia. }
        rewrite <- bind_assoc. rewrite (from_body_ok Hbits Hfit (names_nodup Hfu) Hl Hne Hv Hz). reflexivity.
    Qed.

    Lemma pattern_env_ok names xs : NoDup names -> length names = length xs ->
      Forall2 (fun x y => bind_pattern names (map (fun f => (f, f)) names) xs x = Some y) (map AVar names) xs.
    Proof.
      intros Hn Hl. apply Forall2_nth; [rewrite map_length; exact Hl|]. intros i x y Hx Hy. rewrite nth_error_map in Hx.
      destruct (nth_error names i) as [f|] eqn:Hf; [|discriminate]. injection Hx as <-. cbn [bind_pattern]. rewrite map_map. cbn [fst snd].
      unfold assoc. rewrite !map_map. cbn [fst snd]. rewrite map_id, (index_nth fname_eqb_eq Hn Hf), Hf, (index_nth fname_eqb_eq Hn Hf). exact Hy.
    Qed.
    Lemma data_to_ok k xs off vs : forall pre dn ns arms, all = pre ++ vs -> Forall (fun v : variant A => named_ok (snd v)) vs ->
      data_arms vs off ([KLit 0] ++ sums dn) = Some arms -> Forall2 sized dn ns ->
      all_sized (data_ids (length pre) (vcodes vs)) ->
      off + fold_right N.add 0 ns + total_size (data_ids (length pre) (vcodes vs)) <= usize_max c ->
      (forall v ts, nth_error all k = Some v -> types_of (snd v) = Some ts -> length xs = length ts) ->
      run_to_arms c impl_of all k xs (map (@print_to_discr A) arms) =
      data_to c off (fold_right N.add 0 ns) (data_ids (length pre) (vcodes vs)) k xs.
    Proof.
      intros pre dn ns arms E Hnm Ha Hdn Hsz Hsum Hlen. revert pre dn ns arms E Hnm Ha Hdn Hsz Hsum.
      induction vs as [|[name fu] vs IH]; intros pre dn ns arms E Hnm Ha Hdn Hsz Hsum.
      - cbn in Ha. injection Ha as <-. reflexivity.
      - inversion Hnm as [|v0 vs0 Hfu Hnm']; subst v0 vs0. cbn [snd] in Hfu.
        assert (E' : all = (pre ++ [(name, fu)]) ++ vs) by (rewrite <- app_assoc; exact E).
        assert (Epre : length (pre ++ [(name, fu)]) = S (length pre)) by (rewrite app_length; cbn; lia).
        destruct (types_of fu) as [ts|] eqn:Hts.
        2:{ destruct fu; try discriminate. cbn [vcodes map types_of snd option_map data_ids] in *. cbn [data_arms] in Ha.
            specialize (IH (pre ++ [(name, Unit)]) dn ns arms E' Hnm' Ha Hdn). rewrite Epre in IH. exact (IH Hsz Hsum). }
        assert (Hne : ts <> []) by (intros ->; destruct fu as [|[|]|[|]]; discriminate).
        rewrite (data_arms_step name vs off _ Hts Hne) in Ha. rewrite <- app_assoc, sums_snoc in Ha.
        destruct (data_arms vs off ([KLit 0] ++ sums (dn ++ [ts]))) as [arms'|] eqn:Harms; [|discriminate]. injection Ha as <-.
        rewrite vcodes_cons, Hts in *. cbn [option_map data_ids] in *.
        inversion Hsz as [|a0 data0 [n Hn] Hsz']; subst a0 data0. cbn [snd] in Hn.
        unfold total_size in Hsum. cbn [map fold_right] in Hsum. unfold size_or_0 at 1 in Hsum. cbn [snd] in Hsum. rewrite Hn in Hsum.
        fold (total_size (data_ids (S (length pre)) (vcodes vs))) in Hsum.
        assert (Hdn' : Forall2 sized (dn ++ [ts]) (ns ++ [n])) by (apply Forall2_snoc; assumption).
        specialize (IH (pre ++ [(name, fu)]) (dn ++ [ts]) (ns ++ [n]) arms' E' Hnm' Harms Hdn'). rewrite Epre, sum_snoc in IH.
        specialize (IH Hsz' ltac:(lia)).
        set (R := fold_right N.add 0 ns) in *. cbn [map data_to].
        assert (Hl : length (names_of fu) = length ts) by (apply names_length; exact Hts).
        assert (Ept : print_to_discr (mkArm name off (lenN (names_of fu)) (names_of fu) ts ([KLit 0] ++ sums dn)) =
          ToFields name (map (fun f => (f, f)) (names_of fu)) (to_discr_body (names_of fu) ts ([KLit off; KPlus] ++ [KLit 0] ++ sums dn) (Some (map AVar (names_of fu))))).
        { unfold print_to_discr. cbn [a_data_fields a_offset a_range_high a_name a_field_names a_type_names].
          destruct (N.eqb_spec (lenN (names_of fu)) 0) as [Ez|Ez]; [|reflexivity].
          exfalso. apply Hne. unfold lenN in Ez. rewrite Hl in Ez. destruct ts; [reflexivity|discriminate Ez]. }
        change (KLit 0 :: sums dn) with ([@KLit A 0] ++ sums dn). rewrite Ept. cbn [run_to_arms]. destruct (id_of E) as [Hid Hnth]. cbn [fst] in Hid. rewrite Hid.
        rewrite (Nat.eqb_sym k). destruct (Nat.eqb_spec (length pre) k) as [Hk|Hk].
        + rewrite <- Hk, Hnth. rewrite Hk in Hnth.
          assert (Hxs : length xs = length ts) by (apply (Hlen _ _ Hnth); exact Hts).
          rewrite (@to_body_ok c Hbits A impl_of Hfit (names_of fu) ts _ _ _ (map AVar (names_of fu)) Hne (off_leads off dn)) with (vs := xs).
          * rewrite (ev_off _ _ Hdn) by (fold R; lia). fold R. rewrite (uadd_fit (a := off)) by lia. reflexivity.
          * left. reflexivity.
          * rewrite map_length. exact Hl.
          * apply pattern_env_ok; [apply names_nodup; exact Hfu|congruence].
        + rewrite (arm_num_ok Hbits Hn). cbn [obind]. rewrite (uadd_fit (a := R)) by lia. cbn [obind]. exact IH.
    Qed.
  End OneEnum.
End Impl.
