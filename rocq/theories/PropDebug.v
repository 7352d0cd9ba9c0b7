(** PropDebug.v -- C50: the Debug text.  [shown dbg alt op cl l] (FormatSpec.v): the elements l
    formatted by dbg between the brackets op and cl, as "{:?}" (alt = false) or "{:#?}" prints
    a Vec or a set; [shown_failing]: what has been printed when an element's Debug fails. *)
From Coq Require Import Sorted.
From Verif Require Import ClaimFacts4 SetFacts FormatFacts PropSet PropVec.
Open Scope N_scope.
Open Scope string_scope.

(** The text of an EnumVec is that of a Vec with the same elements, whatever the elements'
    Debug prints (also text of several lines, in any number of pieces). *)
Theorem C50_vec : forall T (c : cfg) (E : enumlike T), setting c E -> forall (dbg : debug_of T) alt v l, holds c E v l ->
  (forallb (fine dbg alt) l = true -> vec_fmt dbg alt c E v = Ret (shown dbg alt "[" "]" l, true)) /\
  (forall l1 x l2, l = (l1 ++ x :: l2)%list -> forallb (fine dbg alt) l1 = true -> fine dbg alt x = false ->
     vec_fmt dbg alt c E v = Ret (shown_failing dbg alt "[" l1 x, false)).
Proof.
  intros T c E Hs dbg alt v l H. pose proof (to_vec_ok Hs H) as Hl. unfold to_vec in Hl. unfold vec_fmt.
  rewrite (vec_entries dbg alt c E v _ _ _ Hl). cbn [obind]. split.
  - intros Hf. rewrite (shown_ok dbg alt "[" "]" l Hf). reflexivity.
  - intros l1 x l2 -> H1 H2. rewrite (failing_ok dbg alt "[" "]" l1 x l2 H1 H2). reflexivity.
Qed.
(** The text of an EnumSet is that of a set with the same elements, each once, in the order of to_discr. *)
Theorem C50_set : forall T (E : enumlike T), lawful E -> forall (dbg : debug_of T) alt s, reachable E s ->
  exists l, StronglySorted (fun x y => to_d E x < to_d E y) l /\ (forall x, In x l <-> set_contains E s x = true) /\
  (forallb (fine dbg alt) l = true -> set_fmt dbg alt E s = Ret (shown dbg alt "{" "}" l, true)) /\
  (forall l1 x l2, l = (l1 ++ x :: l2)%list -> forallb (fine dbg alt) l1 = true -> fine dbg alt x = false ->
     set_fmt dbg alt E s = Ret (shown_failing dbg alt "{" l1 x, false)).
Proof.
  intros T E HE dbg alt s Hs. pose proof (reach E s HE Hs) as Hok. destruct (listing Hok) as [l Hl]. destruct (listing_facts HE Hok Hl) as (_ & H2 & H3 & H4).
  exists l. split; [exact H2|]. split; [exact H3|].
  assert (K : set_fmt dbg alt E s = Ret (finish "}" (fold_left (entry dbg alt) l (start "{")))).
  { unfold set_fmt, set_iter. rewrite Hl at 2. rewrite (set_entries dbg alt HE); [reflexivity|]. rewrite <- H4. unfold lenN. lia. }
  rewrite K. split.
  - intros Hf. rewrite (shown_ok dbg alt "{" "}" l Hf). reflexivity.
  - intros l1 x l2 -> H5 H6. rewrite (failing_ok dbg alt "{" "}" l1 x l2 H5 H6). reflexivity.
Qed.
(** a Debug that prints D(3) in two pieces, spread over three lines with #, and fails at 4 *)
Definition digit (d : N) : string := nth (N.to_nat d) ["0"; "1"; "2"; "3"; "4"] "?".
Definition show5 : debug_of (Fin 5) := fun alt x =>
  let d := to_d (fin 5) x in
  if alt then (["D(" ++ newline; "    " ++ digit d ++ "," ++ newline ++ ")"], negb (d =? 4)%N) else (["D("; digit d ++ ")"], negb (d =? 4)%N).
Definition on_lines (l : list string) : string := concat newline l.
Example C50_example :
  holds u32_debug (fin 5) (mkEv (mkRvec [1 + 8 * 3] 1) 2) [f5 1; f5 3] /\
  shown show5 false "[" "]" [f5 1; f5 3] = "[D(1), D(3)]" /\
  shown show5 true "[" "]" [f5 1; f5 3] =
    on_lines ["["; "    D("; "        1,"; "    ),"; "    D("; "        3,"; "    ),"; "]"] /\
  shown show5 true "{" "}" [] = "{}" /\
  vec_fmt show5 true u32_debug (fin 5) (mkEv (mkRvec [1 + 8 * 3] 1) 2) = Ret (shown show5 true "[" "]" [f5 1; f5 3], true) /\
  vec_fmt show5 false u32_debug (fin 5) (mkEv (mkRvec [1 + 8 * 4 + 64] 1) 3) = Ret ("[D(1), D(4)", false) /\
  set_fmt show5 false (fin 5) [0; 2] = Ret ("{D(0), D(2)}", true).
Proof.
  split; [|vm_compute; repeat split].
  split; [split; [intros b [<-|[]]; reflexivity|]; repeat split; vm_compute; discriminate|].
  intros i. assert (H : i = 0 \/ i = 1 \/ 2 <= i) by lia. destruct H as [->|[->|H]]; [reflexivity|reflexivity|].
  unfold get_raw, len, l_get. cbn [num]. destruct (N.leb_spec 2 i) as [_|G]; [|lia].
  rewrite (proj2 (nth_error_None [f5 1; f5 3] (N.to_nat i))) by (cbn; lia). reflexivity.
Qed.
