(** ExactClaims.v -- ShiftExact.v and ShiftWide.v in terms of [holds]. *)
From Verif Require Export ShiftWide.
From Coq Require Import ZifyBool ZifyNat ZifyN.
Open Scope N_scope.
Set Implicit Arguments.
Unset Strict Implicit.

Section ExactClaims.
  Context {T : Type} {c : cfg} {E : enumlike T}.
  Hypothesis Hs : setting c E.
  Local Notation Hc := (s_ok Hs).
  Local Notation Hcomp := (s_comp Hs).
  Local Notation Hai := (s_alloc Hs).
  Local Notation Hd := (s_d Hs).
  Local Notation Hfd := (s_fd Hs).
  Local Notation B := (BITS E).
  Local Notation P := (EPB c E).
  Local Notation D := (map (to_d E)).

  Lemma get_raw_slot v j : WF c E v -> j < num v -> get_raw c E j v = Ret (Some (slotv c E v j)).
  Proof.
    intros Hw Hj. unfold get_raw, len. rewrite (proj2 (N.leb_gt _ _)) by exact Hj.
    pose proof (wf_cover Hw). rewrite (get_raw_unchecked_spec Hc Hcomp) by lia. reflexivity.
  Qed.

  Lemma remove_exact v l i x : countable c E (i + 1) -> B < W c -> holds c E v l -> l_get l i = Some x ->
    exists v', remove c E i v = (Ret x, v') /\ valid c E v' /\ len v' + 1 = lenN l /\
      (forall j y b, l_get (l_remove l i) j = Some y -> l_get (storage_blocks v) (j / P) = Some b ->
         get_raw c E j v' = Ret (Some (if (j mod P =? P - 1) && (i / P <? j / P) then N.lor (to_d E y) (b / 2 ^ (P * B)) else to_d E y))) /\
      (holds c E v' (l_remove l i) <->
       forall j y b, l_get (l_remove l i) j = Some y -> l_get (storage_blocks v) (j / P) = Some b ->
         j mod P = P - 1 -> i / P < j / P -> N.lor (to_d E y) (b / 2 ^ (P * B)) = to_d E y).
  Proof.
    intros Hfx HB H Hx. apply (holds_RC Hs) in H.
    assert (Hi : nthN (D l) i = Some (to_d E x)) by (rewrite nthN_map, get_D, Hx; reflexivity).
    pose proof (nthN_Some_lt Hi) as Hil. rewrite lenN_map in Hil.
    destruct (noalloc_ret (@noab_remove T c E i) (RC_remove_exact Hc Hcomp Hd Hfx HB H Hi (Hfd x))) as [r [v' [E1 [-> [G1 [G2 G3]]]]]].
    exists v'. split; [exact E1|]. split; [apply WF_valid; exact G1|]. rewrite lenN_map in G2.
    split; [unfold len; lia|].
    assert (Hlr : lenN (l_remove l i) = lenN l - 1).
    { rewrite <- (lenN_map (to_d E) (l_remove l i)), (remove_D Hc Hcomp Hai Hd Hfd), lenN_removeN, lenN_map; [reflexivity|rewrite lenN_map; exact Hil]. }
    assert (K : forall j y b, l_get (l_remove l i) j = Some y -> l_get (storage_blocks v) (j / P) = Some b ->
         get_raw c E j v' = Ret (Some (if (j mod P =? P - 1) && (i / P <? j / P) then N.lor (to_d E y) (b / 2 ^ (P * B)) else to_d E y))).
    { intros j y b Hy Hb. assert (Hj : j < num v').
      { rewrite G2, <- Hlr. eapply nthN_Some_lt. exact Hy. }
      rewrite (get_raw_slot G1 Hj). do 2 f_equal.
      rewrite (G3 j (to_d E y)).
      2:{ rewrite <- (remove_D Hc Hcomp Hai Hd Hfd), nthN_map, get_D, Hy. reflexivity. }
      change ((j mod P =? P - 1) && (i / P <? j / P)) with (damaged (c := c) (E := E) i j).
      destruct (damaged i j); [|reflexivity]. f_equal. unfold wastev. unfold l_get, storage_blocks in Hb. unfold nthN. rewrite Hb.
      unfold waste. apply N.shiftr_div_pow2. }
    split; [exact K|]. split.
    - intros [_ Hh] j y b Hy Hb J1 J2. specialize (K j y b Hy Hb). rewrite (Hh j), Hy in K. cbn [option_map] in K.
      rewrite J1, N.eqb_refl, (proj2 (N.ltb_lt _ _) J2) in K. cbn [andb] in K. injection K as K. symmetry. exact K.
    - intros Hno. split; [apply WF_valid; exact G1|]. intros j.
      destruct (l_get (l_remove l i) j) as [y|] eqn:Hy.
      + assert (Hj : j < lenN l - 1) by (rewrite <- Hlr; eapply nthN_Some_lt; exact Hy).
        destruct (@nthN_lt_Some _ (storage_blocks v) (j / P)) as [b Hb].
        { pose proof (wf_cover (rc_wf H)) as Hcv. rewrite (rc_num H), lenN_map in Hcv. apply (divP_lt Hc Hcomp). unfold vlen, storage_blocks in *. lia. }
        rewrite (K j y b Hy Hb). cbn [option_map]. destruct (N.eqb_spec (j mod P) (P - 1)) as [J1|J1]; cbn [andb]; [|reflexivity].
        destruct (N.ltb_spec (i / P) (j / P)) as [J2|J2]; [|reflexivity]. rewrite (Hno j y b Hy Hb J1 J2). reflexivity.
      + cbn. unfold get_raw, len. rewrite (proj2 (N.leb_le _ _)); [reflexivity|]. rewrite G2, <- Hlr.
        destruct (N.le_gt_cases (lenN (l_remove l i)) j) as [L|L]; [exact L|].
        destruct (nthN_lt_Some L) as [y Hy']. unfold nthN in Hy'. unfold l_get in Hy. congruence.
  Qed.

  Lemma insert_wide v l i x : W c <= B -> holds c E v l -> i <= lenN l ->
    result (insert c E i x v)
      (fun _ v' => ovf c = false /\ valid c E v' /\ len v' = lenN l + 1 /\
         forall j y z, l_get (l ++ [x]) j = Some y -> l_get (l_insert l i x) j = Some z ->
           get_raw c E j v' = Ret (Some (N.lor (to_d E y) (to_d E z))))
      (fun k v' => grow_fails c E v l k v' \/ (k = POverflow /\ ovf c = true /\ holds c E v' (l ++ [x]))).
  Proof.
    intros HB H Hi. apply (holds_RC Hs) in H. apply result_okr.
    eapply okr_mono; [apply (RC_insert_wide Hc Hcomp Hd HB (index := i) x H); rewrite lenN_map; exact Hi|..].
    - intros u v' [G1 [G2 [G3 G4]]]. rewrite lenN_map in G3. split; [exact G1|]. split; [apply WF_valid; exact G2|]. split; [exact G3|].
      intros j y z Hy Hz. rewrite (get_raw_slot G2).
      2:{ rewrite G3. pose proof (@nthN_Some_lt _ (l ++ [x]) j y Hy) as L. rewrite lenN_app in L. exact L. }
      do 2 f_equal. apply G4.
      + change (D l ++ [to_d E x]) with (D l ++ D [x]). rewrite <- map_app, nthN_map, get_D, Hy. reflexivity.
      + rewrite <- (insert_D Hc Hcomp Hai Hd Hfd), nthN_map, get_D, Hz. reflexivity.
    - intros k v' [G|[G1 [G2 G3]]]; [left; exact (push_grow Hs G)|right]. split; [exact G1|]. split; [exact G2|].
      replace (D l ++ [to_d E x]) with (D (l ++ [x])) in G3 by apply map_app. apply (RC_holds Hs G3).
  Qed.

  Lemma updN_set (l : list T) i y : updN (D l) i (to_d E y) = D (l_set l i y).
  Proof. unfold updN, l_set. generalize (N.to_nat i). induction l as [|h t IH]; intros [|n]; cbn; try reflexivity. f_equal. apply IH. Qed.

  Lemma remove_wide v l i x : W c <= B -> holds c E v l -> l_get l i = Some x -> i + 2 < lenN l ->
    result_noalloc (remove c E i v)
      (fun r v' => r = x /\ ovf c = false /\ valid c E v' /\ len v' + 1 = lenN l /\
         forall j y z, l_get l j = Some y -> l_get (l_remove l i) j = Some z ->
           get_raw c E j v' = Ret (Some (if j <=? i then to_d E z else N.lor (to_d E y) (to_d E z))))
      (fun k v' => k = POverflow /\ ovf c = true /\ exists y, l_get l (i + 1) = Some y /\
                   holds c E v' (firstn (N.to_nat (lenN l - 1)) (l_set l i y))).
  Proof.
    intros HB H Hx Hi. apply (holds_RC Hs) in H. apply noalloc_okr; [apply noab_remove|].
    assert (Hn : nthN (D l) i = Some (to_d E x)) by (rewrite nthN_map, get_D, Hx; reflexivity).
    pose proof (nthN_Some_lt Hn) as Hil. rewrite lenN_map in Hil.
    eapply okr_mono; [apply (RC_remove_wide Hc Hcomp Hd HB H Hn (Hfd x)); rewrite lenN_map; exact Hi|..].
    - intros r v' [-> [G1 [G2 [G3 G4]]]]. rewrite lenN_map in G3. split; [reflexivity|]. split; [exact G1|]. split; [apply WF_valid; exact G2|].
      split; [unfold len; lia|]. intros j y z Hy Hz.
      assert (Hlr : lenN (l_remove l i) = lenN l - 1).
      { rewrite <- (lenN_map (to_d E) (l_remove l i)), (remove_D Hc Hcomp Hai Hd Hfd), lenN_removeN, lenN_map; [reflexivity|rewrite lenN_map; exact Hil]. }
      rewrite (get_raw_slot G2) by (rewrite G3, <- Hlr; eapply nthN_Some_lt; exact Hz).
      do 2 f_equal. apply G4.
      + rewrite nthN_map, get_D, Hy. reflexivity.
      + rewrite <- (remove_D Hc Hcomp Hai Hd Hfd), nthN_map, get_D, Hz. reflexivity.
    - intros k v' [G1 [G2 [d [G3 G4]]]]. split; [exact G1|]. split; [exact G2|]. rewrite nthN_map, get_D in G3.
      destruct (l_get l (i + 1)) as [y|]; [|discriminate]. cbn in G3. injection G3 as <-. exists y. split; [reflexivity|].
      rewrite updN_set, lenN_map, firstn_map in G4. apply (RC_holds Hs G4).
  Qed.
End ExactClaims.
