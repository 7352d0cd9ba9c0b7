(** SparseFacts.v -- types with user implementations that leave some numbers unused:
    on their values they behave like the types with those numbers used. *)
From Verif Require Export EnumFacts2.
From Verif Require Import OpFacts ShiftFacts.
From Coq Require Import ZifyBool ZifyNat ZifyN.
Open Scope N_scope.
Set Implicit Arguments.
Unset Strict Implicit.
Set Default Proof Using "Type*".

Fixpoint fill (t : ty) : ty :=
  match t with
  | TUnit => TUnit
  | TBool => TBool
  | TOption t => TOption (fill t)
  | TResult t s => TResult (fill t) (fill s)
  | TTuple ts => TTuple (map fill ts)
  | TArray n t => TArray n (fill t)
  | TStruct ts => TStruct (map fill ts)
  | TEnum vs => TEnum (map (option_map (map fill)) vs)
  | TUser n _ => TUser n []
  end.
Lemma forallb_map A B (f : A -> B) p l : forallb p (map f l) = forallb (fun x => p (f x)) l.
Proof. induction l; cbn; congruence. Qed.
Lemma forallb_Forall A (p : A -> bool) l : Forall (fun x => p x = true) l -> forallb p l = true.
Proof. intros H. induction H as [|x l Hx H IH]; [reflexivity|]. cbn. rewrite Hx, IH. reflexivity. Qed.
Lemma fill_no_holes t : no_holes (fill t) = true.
Proof.
  induction t using ty_induction; cbn [fill no_holes]; try rewrite forallb_map; try reflexivity; auto.
  - rewrite IHt1, IHt2. reflexivity.
  - apply forallb_Forall. exact H.
  - apply forallb_Forall. exact H.
  - apply forallb_Forall. induction H as [|[ts|] vs Hv H IH]; constructor; auto. cbn. rewrite forallb_map. apply forallb_Forall. exact Hv.
Qed.
Lemma map_Forall_eq A B C (f : A -> C) (g : B -> C) (h : A -> B) l : Forall (fun x => g (h x) = f x) l -> map g (map h l) = map f l.
Proof. intros H. induction H as [|x l Hx H IH]; [reflexivity|]. cbn. rewrite Hx, IH. reflexivity. Qed.
Lemma fill_enumerate t : enumerate (fill t) = enumerate t.
Proof.
  induction t using ty_induction; cbn [fill enumerate]; try reflexivity; try (rewrite ?IHt, ?IHt1, ?IHt2; reflexivity).
  - rewrite (map_Forall_eq H). reflexivity.
  - rewrite (map_Forall_eq H). reflexivity.
  - cbv zeta. replace (map (option_map (map enumerate)) (map (option_map (map fill)) vs)) with (map (option_map (map enumerate)) vs); [reflexivity|].
    symmetry. apply map_Forall_eq. induction H as [|[ts|] vs Hv H IH]; constructor; auto. cbn. rewrite (map_Forall_eq Hv). reflexivity.
Qed.
Lemma fill_count t : count (fill t) = count t.
Proof. rewrite <- !enumerate_count, fill_enumerate. reflexivity. Qed.

(** ** k behaves like k' on the values V *)
Definition like (V : val -> bool) (k k' : code) : Prop :=
  k_nv k = k_nv k' /\
  (forall v, V v = true -> k_to k v = k_to k' v) /\
  (forall d v, V v = true -> k_from k' d = Ret v -> k_from k d = Ret v).
Lemma like_num V k k' : like V k k' -> num_variants k = num_variants k'.
Proof. intros [H _]. unfold num_variants. rewrite H. reflexivity. Qed.
Lemma like_refl V k : like V k k.
Proof. repeat split; auto. Qed.
Lemma obind_Ret A B (m : outcome A) (f : A -> outcome B) b : obind m f = Ret b -> exists a, m = Ret a /\ f a = Ret b.
Proof. destruct m; cbn; try discriminate. eauto. Qed.

(** lists: [likes fs ks ks'] *)
Inductive likes : list (val -> bool) -> list code -> list code -> Prop :=
| likes_nil : likes [] [] []
| likes_cons V fs k ks k' ks' : like V k k' -> likes fs ks ks' -> likes (V :: fs) (k :: ks) (k' :: ks').
Lemma likes_nums fs ks ks' : likes fs ks ks' -> map num_variants ks = map num_variants ks'.
Proof. intros H. induction H as [|V fs k ks k' ks' Hk H IH]; [reflexivity|]. cbn. rewrite IH, (like_num Hk). reflexivity. Qed.
Lemma likes_nvs fs ks ks' : likes fs ks ks' -> map k_nv ks = map k_nv ks'.
Proof. intros H. induction H as [|V fs k ks k' ks' Hk H IH]; [reflexivity|]. cbn. rewrite IH, (proj1 Hk). reflexivity. Qed.
Lemma likes_length fs ks ks' : likes fs ks ks' -> length ks = length ks' /\ length fs = length ks.
Proof. intros H. induction H; cbn; lia. Qed.
Lemma likes_app fs ks ks' gs ls ls' : likes fs ks ks' -> likes gs ls ls' -> likes (fs ++ gs) (ks ++ ls) (ks' ++ ls').
Proof. intros H G. induction H; cbn; [exact G|]. constructor; assumption. Qed.
Lemma likes_rev fs ks ks' : likes fs ks ks' -> likes (rev fs) (rev ks) (rev ks').
Proof. intros H. induction H as [|V fs k ks k' ks' Hk H IH]; cbn; [constructor|]. apply likes_app; [exact IH|]. repeat constructor; apply Hk. Qed.
Lemma typed2_app fs : forall vs gs ws, length fs = length vs -> typed2 (fs ++ gs) (vs ++ ws) = typed2 fs vs && typed2 gs ws.
Proof.
  induction fs as [|f fs IH]; intros [|v vs] gs ws H; try discriminate; [reflexivity|]. cbn. rewrite IH by (cbn in H; lia). apply andb_assoc.
Qed.
Lemma typed2_length fs : forall vs, typed2 fs vs = true -> length fs = length vs.
Proof. induction fs as [|f fs IH]; intros [|v vs]; cbn; try discriminate; auto. intros H. apply andb_true_iff in H. f_equal. apply IH. apply H. Qed.
Lemma typed2_rev fs : forall vs, typed2 fs vs = true -> typed2 (rev fs) (rev vs) = true.
Proof.
  induction fs as [|f fs IH]; intros [|v vs] H; try discriminate; [reflexivity|]. cbn in *. apply andb_true_iff in H. destruct H as [H1 H2].
  rewrite typed2_app by (rewrite !rev_length; apply typed2_length, H2). rewrite (IH _ H2). cbn. rewrite H1. reflexivity.
Qed.

Section Like.
  Variable c : cfg.

  Lemma tuple_nv_like ks : forall ks', map k_nv ks = map k_nv ks' -> tuple_nv c ks = tuple_nv c ks'.
  Proof.
    induction ks as [|k ks IH]; intros [|k' ks'] H; try discriminate; [reflexivity|]. cbn [map] in H. injection H as H1 H2.
    specialize (IH _ H2). cbn [tuple_nv]. rewrite H1, IH. destruct ks, ks'; try discriminate; reflexivity.
  Qed.
  Lemma tuple_num_like ks ks' : map k_nv ks = map k_nv ks' -> tuple_num c ks = tuple_num c ks'.
  Proof. intros H. unfold tuple_num. rewrite (tuple_nv_like H). reflexivity. Qed.
  Lemma tuple_to_like fs ks ks' : likes fs ks ks' -> forall vs, typed2 fs vs = true -> tuple_to c ks vs = tuple_to c ks' vs.
  Proof.
    intros H. induction H as [|V fs k ks k' ks' Hk H IH]; intros [|v vs] Hv; try discriminate; [reflexivity|].
    cbn [typed2] in Hv. apply andb_true_iff in Hv. destruct Hv as [Hv1 Hv2].
    pose proof (IH _ Hv2) as E. pose proof (proj1 (proj2 Hk) _ Hv1) as E2. pose proof (tuple_num_like (likes_nvs H)) as E3. cbn [tuple_to].
    rewrite E, E2, E3. inversion H; subst; reflexivity.
  Qed.
  Lemma tuple_from_like fs ks ks' : likes fs ks ks' -> forall d vs, typed2 fs vs = true -> tuple_from c ks' d = Ret vs -> tuple_from c ks d = Ret vs.
  Proof.
    intros H. induction H as [|V fs k ks k' ks' Hk H IH]; intros d vs Hv Hf; [exact Hf|].
    pose proof (tuple_num_like (likes_nvs H)) as E3.
    destruct vs as [|v vs]; [discriminate|]. cbn [typed2] in Hv. apply andb_true_iff in Hv. destruct Hv as [Hv1 Hv2].
    inversion H as [|V2 fs2 k2 ks2 k2' ks2' Hk2 H2]; subst.
    - cbn in *. apply obind_Ret in Hf. destruct Hf as [x [Hx Hf]]. injection Hf as <- <-. rewrite (proj2 (proj2 Hk) _ _ Hv1 Hx). reflexivity.
    - remember (k2 :: ks2) as l. remember (k2' :: ks2') as l'.
      change (match l' with [] => let! v := k_from k' d in Ret [v] | _ => let! r := urem d (tuple_num c l') in let! vs := tuple_from c l' r in let! q := udiv d (tuple_num c l') in let! v := k_from k' q in Ret (v :: vs) end = Ret (v :: vs)) in Hf.
      change (match l with [] => let! v := k_from k d in Ret [v] | _ => let! r := urem d (tuple_num c l) in let! vs := tuple_from c l r in let! q := udiv d (tuple_num c l) in let! v := k_from k q in Ret (v :: vs) end = Ret (v :: vs)).
      rewrite <- E3 in Hf.
      assert (Hf2 : (let! r := urem d (tuple_num c l) in let! vs := tuple_from c l' r in let! q := udiv d (tuple_num c l) in let! v := k_from k' q in Ret (v :: vs)) = Ret (v :: vs))
        by (rewrite Heql' in Hf |- *; exact Hf). clear Hf.
      apply obind_Ret in Hf2. destruct Hf2 as [r [Hr Hf]]. apply obind_Ret in Hf. destruct Hf as [ws [Hws Hf]].
      apply obind_Ret in Hf. destruct Hf as [q [Hq Hf]]. apply obind_Ret in Hf. destruct Hf as [w [Hw Hf]]. injection Hf as <- <-.
      rewrite Hr. cbn [obind]. rewrite (IH _ _ Hv2 Hws). cbn [obind]. rewrite Hq. cbn [obind]. rewrite (proj2 (proj2 Hk) _ _ Hv1 Hw). cbn [obind].
      rewrite Heql. reflexivity.
  Qed.
  Lemma tuple_like fs ks ks' : likes fs ks ks' ->
    like (fun v => match v with VSeq vs => typed2 fs vs | _ => false end) (tuple_code c ks) (tuple_code c ks').
  Proof.
    intros H. destruct (likes_length H) as [Hl _]. pose proof (likes_rev H) as Hr. split; [|split].
    - cbn. rewrite Hl, (tuple_nv_like (likes_nvs Hr)). reflexivity.
    - intros v Hv. destruct v; try discriminate. cbn. apply (tuple_to_like Hr). apply typed2_rev. exact Hv.
    - intros d v Hv Hf. cbn in *. apply obind_Ret in Hf. destruct Hf as [ws [Hws Hf]]. injection Hf as <-.
      apply typed2_rev in Hv. rewrite rev_involutive in Hv. rewrite (tuple_from_like Hr Hv Hws). reflexivity.
  Qed.

  Lemma to_fields_like fs ks ks' : likes fs ks ks' -> forall nums i acc vs, typed2 fs vs = true ->
    to_fields c nums i acc ks vs = to_fields c nums i acc ks' vs.
  Proof.
    intros H. induction H as [|V fs k ks k' ks' Hk H IH]; intros nums i acc [|v vs] Hv; try discriminate; [reflexivity|].
    cbn [typed2] in Hv. apply andb_true_iff in Hv. destruct Hv as [Hv1 Hv2]. cbn [to_fields].
    destruct (product c nums i) as [p|p| |]; try reflexivity. cbn [obind]. rewrite (proj1 (proj2 Hk) _ Hv1).
    destruct (k_to k' v) as [x|x| |]; try reflexivity. cbn [obind]. destruct (umul c p x) as [m|m| |]; try reflexivity. cbn [obind].
    destruct (uadd c acc m) as [a|a| |]; try reflexivity. cbn [obind]. apply IH. exact Hv2.
  Qed.
  Lemma from_fields_like fs ks ks' : likes fs ks ks' -> forall nums i x vs, typed2 fs vs = true ->
    from_fields c nums i x ks' = Ret vs -> from_fields c nums i x ks = Ret vs.
  Proof.
    intros H. induction H as [|V fs k ks k' ks' Hk H IH]; intros nums i x vs Hv Hf; [exact Hf|].
    destruct vs as [|v vs]; [discriminate|]. cbn [typed2] in Hv. apply andb_true_iff in Hv. destruct Hv as [Hv1 Hv2]. cbn [from_fields] in *.
    apply obind_Ret in Hf. destruct Hf as [p [Hp Hf]]. apply obind_Ret in Hf. destruct Hf as [q [Hq Hf]]. apply obind_Ret in Hf. destruct Hf as [r [Hr Hf]].
    apply obind_Ret in Hf. destruct Hf as [w [Hw Hf]]. apply obind_Ret in Hf. destruct Hf as [ws [Hws Hf]]. injection Hf as <- <-.
    rewrite Hp. cbn [obind]. rewrite Hq. cbn [obind].
    assert (Er : match ks with [] => Ret q | _ :: _ => urem q (num_variants k) end = Ret r).
    { rewrite <- Hr, (like_num Hk). inversion H; reflexivity. }
    rewrite Er. cbn [obind]. rewrite (proj2 (proj2 Hk) _ _ Hv1 Hw). cbn [obind]. rewrite (IH _ _ _ _ Hv2 Hws). reflexivity.
  Qed.
  Lemma total_nv_like ks ks' : map k_nv ks = map k_nv ks' -> total_nv c ks = total_nv c ks'.
  Proof. destruct ks as [|k ks], ks' as [|k' ks']; intros H; try discriminate; [reflexivity|]. cbn in *. injection H as H1 H2. rewrite H1, H2. reflexivity. Qed.
  Lemma struct_like fs ks ks' : likes fs ks ks' ->
    like (fun v => match v with VSeq vs => typed2 fs vs | _ => false end) (struct_code c ks) (struct_code c ks').
  Proof.
    intros H. pose proof (likes_nums H) as En. pose proof (likes_nvs H) as Ev. pose proof (likes_length H) as El.
    destruct ks as [|k ks], ks' as [|k' ks']; try (exfalso; cbn in El; lia); [apply like_refl|]. unfold struct_code. split; [|split].
    - cbn [k_nv]. apply total_nv_like. exact Ev.
    - intros v Hv. destruct v as [| | | | | |vs| |]; try discriminate. cbn [k_to]. rewrite En. apply (to_fields_like H). exact Hv.
    - intros d v Hv Hf. cbn [k_from] in *. apply obind_Ret in Hf. destruct Hf as [ws [Hws Hf]]. injection Hf as <-.
      rewrite En, (from_fields_like H Hv Hws). reflexivity.
  Qed.

  Lemma option_like V k k' : like V k k' -> like (fun v => match v with VNone => true | VSome v => V v | _ => false end) (option_code c k) (option_code c k').
  Proof.
    intros H. pose proof (like_num H) as En. split; [|split].
    - cbn [option_code k_nv]. rewrite (proj1 H). reflexivity.
    - intros v Hv. destruct v; try discriminate; cbn; [rewrite En; reflexivity|apply H; exact Hv].
    - intros d v Hv Hf. cbn in *. rewrite En. destruct (d =? num_variants k'); [exact Hf|].
      apply obind_Ret in Hf. destruct Hf as [w [Hw Hf]]. injection Hf as <-. rewrite (proj2 (proj2 H) _ _ Hv Hw). reflexivity.
  Qed.
  Lemma result_like V U k k' s s' : like V k k' -> like U s s' ->
    like (fun v => match v with VOk v => V v | VErr v => U v | _ => false end) (result_code c k s) (result_code c k' s').
  Proof.
    intros H G. pose proof (like_num H) as En. split; [|split].
    - cbn [result_code k_nv]. rewrite (proj1 H), (proj1 G). reflexivity.
    - intros v Hv. destruct v; try discriminate; cbn; [apply H; exact Hv|]. rewrite (proj1 (proj2 G) _ Hv), En. reflexivity.
    - intros d v Hv Hf. cbn in *. rewrite En. destruct (d <? num_variants k').
      + apply obind_Ret in Hf. destruct Hf as [w [Hw Hf]]. injection Hf as <-. rewrite (proj2 (proj2 H) _ _ Hv Hw). reflexivity.
      + apply obind_Ret in Hf. destruct Hf as [z [Hz Hf]]. apply obind_Ret in Hf. destruct Hf as [w [Hw Hf]]. injection Hf as <-.
        rewrite Hz. cbn. rewrite (proj2 (proj2 G) _ _ Hv Hw). reflexivity.
  Qed.

  (** enums *)
  Inductive vlikes : list (option (list (val -> bool))) -> list (option (list code)) -> list (option (list code)) -> Prop :=
  | vl_nil : vlikes [] [] []
  | vl_unit fs ks ks' : vlikes fs ks ks' -> vlikes (None :: fs) (None :: ks) (None :: ks')
  | vl_data f fs k ks k' ks' : likes f k k' -> vlikes fs ks ks' -> vlikes (Some f :: fs) (Some k :: ks) (Some k' :: ks').
  Definition etyped (fs : list (option (list (val -> bool)))) (v : val) : bool :=
    match v with
    | VVariant k vs => match nth_error fs k with
                       | Some None => match vs with [] => true | _ => false end
                       | Some (Some f) => typed2 f vs
                       | None => false
                       end
    | _ => false
    end.
  Inductive arms_like : list (nat * list (val -> bool)) -> list (nat * list code) -> list (nat * list code) -> Prop :=
  | al_nil : arms_like [] [] []
  | al_cons k f a a' fs as_ as' : likes f a a' -> arms_like fs as_ as' -> arms_like ((k, f) :: fs) ((k, a) :: as_) ((k, a') :: as').
  Fixpoint arm_types (k : nat) (fs : list (option (list (val -> bool)))) : list (nat * list (val -> bool)) :=
    match fs with
    | [] => []
    | None :: fs' => arm_types (S k) fs'
    | Some f :: fs' => (k, f) :: arm_types (S k) fs'
    end.
  Lemma vlikes_units fs ks ks' : vlikes fs ks ks' -> forall k, unit_ids k ks = unit_ids k ks'.
  Proof. intros H. induction H as [|fs ks ks' H IH|f fs a ks a' ks' Ha H IH]; intros k; cbn; [reflexivity|rewrite IH; reflexivity|apply IH]. Qed.
  Lemma vlikes_arms fs ks ks' : vlikes fs ks ks' -> forall k, arms_like (arm_types k fs) (data_ids k ks) (data_ids k ks').
  Proof. intros H. induction H as [|fs ks ks' H IH|f fs a ks a' ks' Ha H IH]; intros k; cbn; [constructor|apply IH|constructor; auto]. Qed.
  Lemma arm_types_ge fs : forall k0 k f, In (k, f) (arm_types k0 fs) -> (k0 <= k)%nat.
  Proof.
    induction fs as [|[g|] fs IH]; intros k0 k f Hin; cbn in Hin; [contradiction| |].
    - destruct Hin as [E|Hin]; [injection E as <- <-; lia|]. specialize (IH _ _ _ Hin). lia.
    - specialize (IH _ _ _ Hin). lia.
  Qed.
  Lemma arm_types_nth fs : forall k0 k f, In (k, f) (arm_types k0 fs) <-> exists i, k = (k0 + i)%nat /\ nth_error fs i = Some (Some f).
  Proof.
    induction fs as [|[g|] fs IH]; intros k0 k f; cbn.
    - split; [contradiction|]. intros [i [_ H]]. destruct i; discriminate.
    - rewrite IH. split.
      + intros [E|[i [-> Hi]]]; [injection E as <- <-; exists O; rewrite Nat.add_0_r; auto|exists (S i); split; [lia|exact Hi]].
      + intros [[|i] [-> Hi]]; [left; cbn in Hi; injection Hi as ->; rewrite Nat.add_0_r; reflexivity|right; exists i; split; [lia|exact Hi]].
    - rewrite IH. split.
      + intros [i [-> Hi]]. exists (S i). split; [lia|exact Hi].
      + intros [[|i] [-> Hi]]; [discriminate|]. exists i. split; [lia|exact Hi].
  Qed.
  Lemma arm_num_like f a a' : likes f a a' -> arm_num c a = arm_num c a'.
  Proof. intros H. unfold arm_num. rewrite (likes_nums H), (proj1 (likes_length H)). reflexivity. Qed.
  Lemma arm_nv_like f a a' : likes f a a' -> arm_nv c a = arm_nv c a'.
  Proof. intros H. unfold arm_nv. inversion H; subst; [reflexivity|]. apply total_nv_like. exact (likes_nvs H). Qed.
  Lemma data_to_like fs as_ as' : arms_like fs as_ as' -> forall off rh k vs,
    (forall f, In (k, f) fs -> typed2 f vs = true) -> data_to c off rh as_ k vs = data_to c off rh as' k vs.
  Proof.
    intros H. induction H as [|k1 f a a' fs as_ as' Ha H IH]; intros off rh k vs Hv; [reflexivity|]. cbn [data_to].
    destruct (Nat.eqb_spec k1 k) as [->|_].
    - destruct (uadd c off rh) as [o|o| |]; try reflexivity. cbn [obind]. rewrite (likes_nums Ha). apply (to_fields_like Ha). apply Hv. left. reflexivity.
    - rewrite (arm_num_like Ha). destruct (arm_num c a') as [n|n| |]; try reflexivity. cbn [obind].
      destruct (uadd c rh n) as [r|r| |]; try reflexivity. cbn [obind]. apply IH. intros g Hg. apply Hv. right. exact Hg.
  Qed.
  Lemma data_from_like fs as_ as' : arms_like fs as_ as' -> forall off rh x v,
    (forall k vs f, v = VVariant k vs -> In (k, f) fs -> typed2 f vs = true) ->
    data_from c off rh as' x = Ret v -> data_from c off rh as_ x = Ret v.
  Proof.
    intros H. induction H as [|k1 f a a' fs as_ as' Ha H IH]; intros off rh x v Hv Hf; [exact Hf|]. cbn [data_from] in *.
    rewrite (arm_num_like Ha).
    apply obind_Ret in Hf. destruct Hf as [lo [Hlo Hf]]. rewrite Hlo. cbn [obind].
    apply obind_Ret in Hf. destruct Hf as [n [Hn Hf]]. rewrite Hn. cbn [obind].
    apply obind_Ret in Hf. destruct Hf as [r [Hr Hf]]. rewrite Hr. cbn [obind].
    apply obind_Ret in Hf. destruct Hf as [hi [Hhi Hf]]. rewrite Hhi. cbn [obind].
    destruct ((lo <=? x) && (x <? hi)).
    - apply obind_Ret in Hf. destruct Hf as [y [Hy Hf]]. rewrite Hy. cbn [obind].
      apply obind_Ret in Hf. destruct Hf as [z [Hz Hf]]. rewrite Hz. cbn [obind].
      apply obind_Ret in Hf. destruct Hf as [ws [Hws Hf]]. injection Hf as <-. rewrite (likes_nums Ha).
      rewrite (from_fields_like Ha (Hv _ _ _ eq_refl (or_introl eq_refl)) Hws). reflexivity.
    - apply IH; [|exact Hf]. intros k vs g E Hg. apply (Hv _ _ _ E). right. exact Hg.
  Qed.
  Lemma vlikes_clike fs ks ks' : vlikes fs ks ks' ->
    forallb (fun v : option (list code) => match v with None => true | Some _ => false end) ks =
    forallb (fun v : option (list code) => match v with None => true | Some _ => false end) ks' /\ length ks = length ks'.
  Proof. intros H. induction H; cbn; intuition congruence. Qed.
  Lemma arms_nv_like fs as_ as' : arms_like fs as_ as' ->
    map (fun a : nat * list code => arm_nv c (snd a)) as_ = map (fun a : nat * list code => arm_nv c (snd a)) as'.
  Proof. intros H. induction H as [|k1 f a a' fs as_ as' Ha H IH]; [reflexivity|]. cbn [map snd]. rewrite IH, (arm_nv_like Ha). reflexivity. Qed.
  Lemma enum_like fs ks ks' : vlikes fs ks ks' -> like (etyped fs) (enum_code c ks) (enum_code c ks').
  Proof.
    intros H. destruct (vlikes_clike H) as [E1 E2]. unfold enum_code. rewrite E1, E2. destruct (forallb _ ks'); [apply like_refl|].
    pose proof (vlikes_units H 0) as Eu. pose proof (vlikes_arms H 0) as Ea. split; [|split].
    - cbn [rusty_enum_code k_nv]. rewrite Eu, (arms_nv_like Ea). reflexivity.
    - intros v Hv. destruct v as [| | | | | | |k vs|]; try discriminate. cbn [rusty_enum_code k_to]. rewrite Eu.
      destruct (position k _); [reflexivity|]. apply (data_to_like Ea). intros f Hf. apply arm_types_nth in Hf. destruct Hf as [i [-> Hi]].
      cbn in Hv. rewrite Hi in Hv. exact Hv.
    - intros d v Hv Hf. cbn [rusty_enum_code k_from] in *. rewrite Eu. destruct (nthN _ d); [exact Hf|]. refine (data_from_like Ea _ Hf).
      intros k vs f -> Hin. apply arm_types_nth in Hin. destruct Hin as [i [-> Hi]]. cbn in Hv. rewrite Hi in Hv. exact Hv.
  Qed.
  Lemma user_like n unused : like (fun v => match v with VUser x => user_value n unused x | _ => false end) (user_code c n unused) (user_code c n []).
  Proof.
    assert (Hs : forall x, user_value n unused x = true -> user_value n [] x = true).
    { intros x H. rewrite user_value_nil. unfold user_value in H. apply andb_true_iff in H. apply H. }
    split; [reflexivity|split].
    - intros v Hv. destruct v; try discriminate. cbn. rewrite Hv, (Hs _ Hv). reflexivity.
    - intros d v Hv Hf. cbn in *. destruct (user_value n [] d) eqn:E; [|discriminate]. injection Hf as <-. rewrite Hv. reflexivity.
  Qed.
  Lemma like_ext V U k k' : like V k k' -> (forall v, U v = true -> V v = true) -> like U k k'.
  Proof. intros [H1 [H2 H3]] E. repeat split; auto. Qed.
  Lemma likes_map ts : Forall (fun t => like (has_ty t) (code_of c t) (code_of c (fill t))) ts ->
    likes (map has_ty ts) (map (code_of c) ts) (map (code_of c) (map fill ts)).
  Proof. intros H. induction H; cbn; constructor; assumption. Qed.
  Lemma array_types t n vs : Nat.eqb (length vs) n && forallb (has_ty t) vs = typed2 (repeat (has_ty t) n) vs.
  Proof.
    revert vs. induction n as [|n IH]; intros [|v vs]; try reflexivity. cbn [length Nat.eqb forallb repeat typed2]. rewrite <- IH.
    destruct (has_ty t v); cbn; [reflexivity|apply andb_false_r].
  Qed.

  Theorem fill_like t : like (has_ty t) (code_of c t) (code_of c (fill t)).
  Proof.
    induction t using ty_induction; cbn [fill code_of].
    - apply like_refl.
    - apply like_refl.
    - apply (like_ext (option_like IHt)). intros v; destruct v; cbn; auto.
    - apply (like_ext (result_like IHt1 IHt2)). intros v; destruct v; cbn; auto.
    - apply (like_ext (tuple_like (likes_map H))). intros v; destruct v; cbn; auto.
    - assert (Hr : likes (repeat (has_ty t) n) (repeat (code_of c t) n) (repeat (code_of c (fill t)) n)) by (induction n; cbn; constructor; assumption).
      apply (like_ext (tuple_like Hr)). intros v; destruct v; cbn; auto. rewrite array_types. auto.
    - apply (like_ext (struct_like (likes_map H))). intros v; destruct v; cbn; auto.
    - assert (Hv : vlikes (map (option_map (map has_ty)) vs) (map (option_map (map (code_of c))) vs) (map (option_map (map (code_of c))) (map (option_map (map fill)) vs))).
      { induction H as [|[ts|] vs Hv H IH]; cbn; constructor; auto. apply likes_map. exact Hv. }
      apply (like_ext (enum_like Hv)). intros v; destruct v; cbn; auto.
    - apply (like_ext (user_like n unused)). intros v; destruct v; cbn; auto.
  Qed.
End Like.
Lemma typed_fill t : forall v, has_ty t v = true -> has_ty (fill t) v = true.
Proof.
  assert (Hl : forall ts, Forall (fun t => forall v, has_ty t v = true -> has_ty (fill t) v = true) ts ->
               forall vs, typed2 (map has_ty ts) vs = true -> typed2 (map has_ty (map fill ts)) vs = true).
  { intros ts H. induction H as [|t' ts Ht H IH]; intros [|v vs] Hv; cbn in *; try discriminate; auto.
    apply andb_true_iff in Hv. destruct Hv as [H1 H2]. rewrite (Ht _ H1), (IH _ H2). reflexivity. }
  induction t using ty_induction; intros v Hv; destruct v; cbn [fill has_ty] in *; try discriminate; auto.
  - apply andb_true_iff in Hv. destruct Hv as [H1 H2]. rewrite H1. cbn. rewrite forallb_forall in *. auto.
  - rewrite !nth_error_map in *. destruct (nth_error vs k) as [[ts|]|] eqn:E; cbn in *; try discriminate; auto.
    apply Hl; [|exact Hv]. rewrite Forall_forall in H. apply (H _ (nth_error_In _ _ E)).
  - rewrite user_value_nil. unfold user_value in Hv. apply andb_true_iff in Hv. apply Hv.
Qed.

Section Laws.
  Variable c : cfg.
  Hypothesis Hbits : 2 <= usize_bits c.
  Lemma nv_fill t : num_variants_of c (fill t) = num_variants_of c t.
  Proof. symmetry. apply (fill_like c t). Qed.
  Theorem nv_count t n : num_variants_of c t = Some n -> n = count t /\ n <= usize_max c.
  Proof. rewrite <- nv_fill, <- fill_count. apply (compiles_count Hbits (fill_no_holes t)). Qed.
  Theorem number_of t n v : num_variants_of c t = Some n -> has_ty t v = true ->
    exists d, nthN (enumerate t) d = Some v /\ to_discr_of c t v = Ret d /\ d < n /\ from_discr_of c t d = Ret v.
  Proof.
    intros Hn Hv. pose proof (typed_fill Hv) as Hv'. rewrite <- nv_fill in Hn. pose proof (code_good Hbits (fill_no_holes t) Hn) as G.
    destruct (compiles_count Hbits (fill_no_holes t) Hn) as [Ec _].
    apply (enumerate_typed (fill_no_holes t)) in Hv'. apply In_nth_error in Hv'. destruct Hv' as [i Hi].
    assert (Hd : nthN (enumerate (fill t)) (N.of_nat i) = Some v) by (unfold nthN; rewrite Nat2N.id; exact Hi).
    exists (N.of_nat i). rewrite <- fill_enumerate. split; [exact Hd|]. destruct (fill_like c t) as [_ [L2 L3]].
    split; [unfold to_discr_of; rewrite (L2 _ Hv); exact (g_to G Hd)|]. split.
    - rewrite Ec, <- enumerate_count. apply (nthN_Some_lt Hd).
    - unfold from_discr_of. apply (L3 _ _ Hv). exact (g_from G Hd).
  Qed.
  Theorem value_of t n d : num_variants_of c t = Some n -> no_holes t = true -> d < n ->
    exists v, has_ty t v = true /\ to_discr_of c t v = Ret d.
  Proof.
    intros Hn Hh Hd. destruct (nv_count Hn) as [Ec _]. rewrite Ec, <- enumerate_count in Hd.
    unfold lenN in Hd. destruct (nth_error (enumerate t) (N.to_nat d)) as [v|] eqn:E.
    - exists v. split; [apply (enumerate_typed Hh), (nth_error_In _ _ E)|]. exact (g_to (code_good Hbits Hh Hn) E).
    - apply nth_error_None in E. lia.
  Qed.
End Laws.
