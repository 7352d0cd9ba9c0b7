(** FormatFacts.v -- proofs for PropDebug.v. *)
From Verif Require Import SetFacts ClaimFacts4.
From Verif Require Export Format FormatSpec.
Open Scope N_scope.
Open Scope string_scope.
Set Implicit Arguments.

Lemma sapp_nil s : s ++ "" = s. Proof. induction s; cbn; congruence. Qed.
Lemma sapp_assoc a b d : (a ++ b) ++ d = a ++ (b ++ d). Proof. induction a; cbn; congruence. Qed.
Lemma cc_cons x l : concat "" (x :: l) = x ++ concat "" l.
Proof. destruct l; cbn; [rewrite sapp_nil|]; reflexivity. Qed.
Lemma cc_app l l' : concat "" (l ++ l') = concat "" l ++ concat "" l'.
Proof. induction l as [|x l IH]; [reflexivity|]. rewrite <- app_comm_cons, !cc_cons, IH, sapp_assoc. reflexivity. Qed.
Lemma sep_snoc sp l t : concat sp (l ++ [t])%list = concat sp l ++ (match l with [] => "" | _ => sp end) ++ t.
Proof.
  induction l as [|x l IH]; [reflexivity|]. cbn [List.app concat]. destruct l as [|y l]; cbn [List.app] in *; [reflexivity|].
  rewrite IH. cbn [concat]. rewrite !sapp_assoc. reflexivity.
Qed.

(** ** PadAdapter character by character *)
Fixpoint padc (on : bool) (s : string) : string :=
  match s with "" => "" | String ch s' => (if on then "    " else "") ++ String ch (padc (Ascii.eqb ch nl) s') end.
Fixpoint endc (on : bool) (s : string) : bool :=
  match s with "" => on | String ch s' => endc (Ascii.eqb ch nl) s' end.
Lemma padc_app : forall s on t, padc on (s ++ t) = padc on s ++ padc (endc on s) t.
Proof. induction s as [|ch s IH]; intros on t; [reflexivity|]. cbn [String.append padc endc]. rewrite IH, !sapp_assoc. reflexivity. Qed.
Lemma endc_app : forall s on t, endc on (s ++ t) = endc (endc on s) t.
Proof. induction s as [|ch s IH]; intros on t; [reflexivity|]. cbn [String.append endc]. apply IH. Qed.
Lemma split_nil s : split_lines s = [] -> s = "".
Proof. destruct s as [|ch s]; [reflexivity|]. cbn [split_lines]. destruct (Ascii.eqb ch nl); [intros H; discriminate H|]. destruct (split_lines s); intros H; discriminate H. Qed.
Lemma split_ne s l : In l (split_lines s) -> l <> "".
Proof.
  revert l. induction s as [|ch s IH]; intros l H; [destruct H|]. cbn [split_lines] in H. destruct (Ascii.eqb ch nl).
  - destruct H as [<-|H]; [discriminate|exact (IH _ H)].
  - destruct (split_lines s) as [|m ls]; [destruct H as [<-|[]]; discriminate|]. destruct H as [<-|H]; [discriminate|]. apply IH. right. exact H.
Qed.
Lemma pad_write_ok : forall s on out, pad_write (on, out) s = (endc on s, out ++ padc on s).
Proof.
  unfold pad_write. induction s as [|ch s IH]; intros on out; cbn [split_lines padc endc]; [cbn; rewrite sapp_nil; reflexivity|].
  destruct (Ascii.eqb ch nl) eqn:G.
  - cbn [fold_left pad_piece ends_with_nl]. rewrite G, IH, !sapp_assoc. reflexivity.
  - pose proof (split_nil s) as HN. pose proof (split_ne s) as HE. destruct (split_lines s) as [|l ls].
    + rewrite (HN eq_refl). cbn [fold_left pad_piece ends_with_nl padc endc]. rewrite G. reflexivity.
    + specialize (IH false (out ++ (if on then "    " else "") ++ String ch "")). cbn [fold_left pad_piece] in *.
      assert (Hl : l <> "") by (apply HE; left; reflexivity). destruct l as [|ch' l]; [congruence|].
      change (ends_with_nl (String ch (String ch' l))) with (ends_with_nl (String ch' l)).
      rewrite <- G in IH at 1. rewrite G in IH. cbn [append] in IH. rewrite !sapp_assoc in IH. cbn [append] in IH. rewrite IH. f_equal. 
Qed.
Lemma pad_pieces : forall ps on out, fold_left pad_write ps (on, out) = (endc on (concat "" ps), out ++ padc on (concat "" ps)).
Proof.
  induction ps as [|s ps IH]; intros on out; [cbn; rewrite sapp_nil; reflexivity|].
  cbn [fold_left]. rewrite pad_write_ok, IH, cc_cons, endc_app, padc_app, sapp_assoc. reflexivity.
Qed.
Lemma padc_indent s : padc true s = indent s.
Proof.
  unfold indent. assert (H : forall on, padc on s = match lines_of s with [] => "" | l :: ls => (if on then "    " else "") ++ l ++ concat "" (map (fun l => "    " ++ l) ls) end).
  { induction s as [|ch s IH]; intros on; [reflexivity|]. cbn [padc lines_of]. destruct (Ascii.eqb ch nl).
    - rewrite IH. cbn [map]. destruct (lines_of s) as [|l ls]; [reflexivity|]. cbn [append map]. rewrite cc_cons. reflexivity.
    - rewrite IH. destruct (lines_of s) as [|l ls]; reflexivity. }
  rewrite H. destruct (lines_of s) as [|l ls]; [reflexivity|]. cbn [map]. rewrite cc_cons, sapp_assoc. reflexivity.
Qed.
Lemma plain_pieces : forall ps out, fold_left append ps out = out ++ concat "" ps.
Proof. induction ps as [|s ps IH]; intros out; [cbn; rewrite sapp_nil; reflexivity|]. cbn [fold_left]. rewrite IH, cc_cons, sapp_assoc. reflexivity. Qed.

Section Builder.
  Context {T : Type} (dbg : debug_of T) (alt : bool).
  Local Notation entry := (entry dbg alt).
  Definition body (l : list T) : string :=
    if alt then match l with [] => "" | _ => newline ++ concat "" (map (fun x => indent (text dbg true x ++ "," ++ newline)) l) end
    else concat ", " (map (text dbg false) l).
  Definition filled (l : list T) : bool := match l with [] => false | _ => true end.
  Lemma entry_ok op l x : fine dbg alt x = true ->
    entry (mkBuilder (op ++ body l) true (filled l)) x = mkBuilder (op ++ body (l ++ [x])%list) true true.
  Proof.
    unfold fine, body, Format.entry. cbn [b_ok b_out b_fields]. assert (Ht : text dbg alt x = concat "" (fst (dbg alt x))) by reflexivity.
    destruct (dbg alt x) as [ps ok] eqn:G. cbn [snd fst] in *. intros ->. destruct alt.
    - rewrite pad_pieces, pad_write_ok. cbn [snd]. f_equal. rewrite !sapp_assoc, <- padc_app, padc_indent, <- Ht, map_app. cbn [map].
      rewrite cc_app, cc_cons. cbn [concat]. rewrite sapp_nil. destruct l as [|y l]; cbn [filled List.app map concat String.append]; [reflexivity|].
      rewrite !sapp_assoc. reflexivity.
    - rewrite plain_pieces, <- Ht. f_equal. rewrite map_app. cbn [map]. rewrite sep_snoc, !sapp_assoc. destruct l; reflexivity.
  Qed.
  Lemma entries_ok op : forall l2 l1, forallb (fine dbg alt) l2 = true ->
    fold_left entry l2 (mkBuilder (op ++ body l1) true (filled l1)) = mkBuilder (op ++ body (l1 ++ l2)%list) true (filled (l1 ++ l2)%list).
  Proof.
    induction l2 as [|x l2 IH]; intros l1 H; [rewrite app_nil_r; reflexivity|]. cbn [forallb] in H. apply andb_true_iff in H. destruct H as [H1 H2].
    cbn [fold_left]. rewrite (entry_ok op l1 _ H1). specialize (IH (l1 ++ [x])%list H2). rewrite <- app_assoc in IH. cbn [List.app] in IH. rewrite <- IH.
    destruct l1; reflexivity.
  Qed.
  Lemma start_ok op : start op = mkBuilder (op ++ body []) true (filled []).
  Proof. unfold start, body. destruct alt; cbn [map concat]; rewrite sapp_nil; reflexivity. Qed.
  Lemma shown_ok op cl l : forallb (fine dbg alt) l = true -> finish cl (fold_left entry l (start op)) = (shown dbg alt op cl l, true).
  Proof.
    intros H. rewrite start_ok, (entries_ok op l [] H). unfold finish. cbn [b_ok b_out List.app]. rewrite sapp_assoc. unfold shown, plain, pretty, body. destruct alt; reflexivity.
  Qed.
  Lemma stuck : forall l b, b_ok b = false -> b_ok (fold_left entry l b) = false /\ b_out (fold_left entry l b) = b_out b.
  Proof.
    induction l as [|x l IH]; intros b H; [auto|]. cbn [fold_left]. unfold Format.entry at 2 4. rewrite H. destruct (IH (mkBuilder (b_out b) false true) eq_refl) as [H1 H2]. auto.
  Qed.
  Lemma failing_ok op cl l1 x l2 : forallb (fine dbg alt) l1 = true -> fine dbg alt x = false ->
    finish cl (fold_left entry (l1 ++ x :: l2)%list (start op)) = (shown_failing dbg alt op l1 x, false).
  Proof.
    intros H Hx. rewrite fold_left_app, start_ok, (entries_ok op l1 [] H). cbn [fold_left List.app].
    assert (K : entry (mkBuilder (op ++ body l1) true (filled l1)) x = mkBuilder (shown_failing dbg alt op l1 x) false true).
    { unfold fine, body, shown_failing, Format.entry in *. cbn [b_ok b_out b_fields]. assert (Ht : text dbg alt x = concat "" (fst (dbg alt x))) by reflexivity.
      destruct (dbg alt x) as [ps ok] eqn:G. cbn [snd fst] in *. subst ok. destruct alt.
      - rewrite pad_pieces. cbn [snd]. f_equal. rewrite padc_indent, <- Ht, !sapp_assoc. destruct l1 as [|y l1]; cbn [filled map concat String.append]; [reflexivity|].
        rewrite !sapp_assoc. reflexivity.
      - rewrite plain_pieces, <- Ht, sep_snoc. f_equal. rewrite !sapp_assoc. destruct l1; reflexivity. }
    rewrite K. destruct (@stuck l2 (mkBuilder (shown_failing dbg alt op l1 x) false true) eq_refl) as [S1 S2]. unfold finish. rewrite S1, S2. reflexivity.
  Qed.

  (** driving the builder with an iterator *)
  Lemma vec_entries c E v : forall n r l b, iter_collect c E v n r = Ret l -> entries dbg alt (iter_next c E v) n r b = Ret (fold_left entry l b).
  Proof.
    induction n as [|n IH]; intros r l b; cbn [iter_collect entries]; destruct (iter_next c E v r) as [[[x|]|k| |] r']; try discriminate; try (intros [= <-]; reflexivity).
    intros H. destruct (iter_collect c E v n r') as [l'|k| |] eqn:G; cbn in H; try discriminate H. injection H as <-. cbn [fold_left]. apply IH. exact G.
  Qed.
  Lemma set_entries E : lawful E -> forall l n b, (List.length l <= n)%nat -> entries dbg alt (wrap_next E) n (map (to_d E) l) b = Ret (fold_left entry l b).
  Proof.
    intros HE. induction l as [|x l IH]; intros n b Hn; [destruct n; reflexivity|]. destruct n as [|n]; [cbn in Hn; lia|]. cbn [map entries].
    unfold wrap_next. unfold from_discr. rewrite (proj2 HE x). cbn [fold_left]. apply IH. cbn in Hn. lia.
  Qed.
End Builder.
