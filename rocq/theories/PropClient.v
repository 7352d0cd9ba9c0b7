(** PropClient.v -- C21, C22, C23 for clients whose next call depends on everything they have
    seen (Client.v).  The conditions [plain_op] and [tame_op] look at the call alone, not at the
    state of the vectors: such a client needs to check nothing.  For this the vectors must not
    come within a block of usize::MAX elements: [roomy c], which holds on 64-bit targets. *)
From Verif Require Import SurviveFacts DeriveSpec DeriveFacts PropEnum PropDerive.
Open Scope N_scope.

(** Memory safety, for any EnumLike implementation at all.
    Missing: append in the Vec storages and split_off (C21_memory_safety_partial covers the
    states in which these are safe). *)
Theorem C21_client_partial : forall T (c : cfg) (E : enumlike T), cfg_ok c -> roomy c -> compiles c E = true ->
  forall k, tame_client c E k -> forall n, ~ In MUB (m_play c E n k [] []).
Proof. intros T c E H1 H2 H3 k Hk n. exact (@client_safe _ _ _ H1 H2 H3 n k Hk [] [] (Forall_nil _)). Qed.
(** Agreement with Vec, call by call, until memory runs out.  The client starts with any
    vectors p, whose elements are the lists sp ([] and [] for a client that starts with none). *)
Theorem C22_client_partial : forall T (c : cfg) (E : enumlike T), setting c E -> roomy c ->
  forall k, plain_client c E k -> forall p sp, Forall2 (holds c E) p sp ->
  forall n, agrees (m_play c E n k [] p) (v_play E n k [] sp).
Proof. intros T c E Hs Hr k Hk p sp H n. exact (@client_sim _ _ _ Hs Hr n k Hk [] p sp (inv_start Hs Hr H)). Qed.
(** Vectors with the same elements cannot be told apart, whatever was in their storage before. *)
Theorem C39_client_partial : forall T (c : cfg) (E : enumlike T), setting c E -> roomy c ->
  forall k, plain_client c E k -> forall p q sp, Forall2 (holds c E) p sp -> Forall2 (holds c E) q sp ->
  forall n, Forall completed (m_play c E n k [] p) -> Forall completed (m_play c E n k [] q) ->
  m_play c E n k [] p = m_play c E n k [] q.
Proof.
  intros T c E Hs Hr k Hk p q sp Hp Hq n C1 C2.
  rewrite (agrees_completed (C22_client_partial T c E Hs Hr k Hk p sp Hp n) C1), (agrees_completed (C22_client_partial T c E Hs Hr k Hk q sp Hq n) C2). reflexivity.
Qed.
Example C39_client_example : exists w, Forall2 (holds u32_debug (fin 5)) [w] [old_list] /\ Forall2 (holds u32_debug (fin 5)) [old_vec u32_debug] [old_list] /\
  storage w <> storage (old_vec u32_debug).
Proof.
  destruct eq_with_stale as [w [H1 [H2 _]]]. exists w. split; [constructor; [exact H1|constructor]|]. split; [|exact H2]. constructor; [exact old_vec_debug|constructor].
Qed.
(** The storage, the usize width and the build profile cannot be told apart. *)
Theorem C23_client_partial : forall T (c1 c2 : cfg) (E : enumlike T), setting c1 E -> setting c2 E -> roomy c1 -> roomy c2 ->
  forall k, plain_client c1 E k -> plain_client c2 E k -> forall n,
  Forall completed (m_play c1 E n k [] []) -> Forall completed (m_play c2 E n k [] []) ->
  m_play c1 E n k [] [] = m_play c2 E n k [] [].
Proof.
  intros T c1 c2 E H1 H2 R1 R2 k K1 K2 n C1 C2.
  rewrite (agrees_completed (C22_client_partial T c1 E H1 R1 k K1 [] [] (Forall2_nil _) n) C1), (agrees_completed (C22_client_partial T c2 E H2 R2 k K2 [] [] (Forall2_nil _) n) C2). reflexivity.
Qed.

(** A client that pushes until len() is 10, then looks at element 3, removes it while it is
    below 2, and puts it back past the end. *)
Definition curious : client (Fin 4) := fun seen =>
  match rev seen with
  | [] => Some ONew
  | RUnit :: _ => Some (OLen 0)
  | RNum n :: _ => if n <? 10 then Some (OPush 0 (f4 ((n * n) mod 4))) else Some (ORead 0 3)
  | ROpt (Some x) :: _ => if to_d (fin 4) x <? 1 then None else Some (ORemove 0 3)
  | RVal x :: _ => Some (OInsert 0 100 x)
  | _ => None
  end.
Lemma curious_plain : plain_client u32_release (fin 4) curious /\ plain_client u32_debug (fin 4) curious /\ tame_client u32_debug (fin 4) curious.
Proof.
  assert (H : forall seen o, curious seen = Some o -> o = ONew \/ o = OLen 0 \/ (exists x, o = OPush 0 x) \/ o = ORead 0 3 \/ o = ORemove 0 3 \/ exists x, o = OInsert 0 100 x).
  { intros seen o Ho. unfold curious in Ho. destruct (rev seen) as [|[] l]; try discriminate Ho.
    - injection Ho as <-. auto.
    - injection Ho as <-. auto.
    - injection Ho as <-. eauto 10.
    - destruct o0 as [x|]; [|discriminate]. destruct (to_d (fin 4) x <? 1); [discriminate|]. injection Ho as <-. auto 10.
    - destruct (n <? 10); injection Ho as <-; eauto 10. }
  split; [|split]; intros seen o Ho; destruct (H _ _ Ho) as [-> |[-> |[[x ->]|[-> |[-> |[x ->]]]]]]; reflexivity.
Qed.
Example C22_client_example : setting u32_release (fin 4) /\ setting u32_debug (fin 4) /\ plain_client u32_release (fin 4) curious /\
  length (m_play u32_debug (fin 4) 40 curious [] []) = 27%nat /\
  m_play u32_debug (fin 4) 40 curious [] [] = map (@MRes _) (v_play (fin 4) 40 curious [] []) /\
  Forall completed (m_play u32_debug (fin 4) 40 curious [] []) /\
  ~ (plain_client u32_release (fin 5) (fun _ => Some (ORemove 0 3))).
Proof.
  split; [exact s_u32r_4|]. split; [apply fin_setting; [apply u32_debug_ok|reflexivity|discriminate]|]. split; [exact (proj1 curious_plain)|].
  split; [vm_compute; reflexivity|]. split; [vm_compute; reflexivity|]. split; [vm_compute; repeat (constructor; [eexists; reflexivity|]); constructor|].
  intros H. specialize (H [] _ eq_refl). vm_compute in H. discriminate H.
Qed.

(** ** Clients that survive running out of memory *)
(** Safety: a capacity overflow panic that is caught leaves nothing dangerous behind. *)
Theorem C21_survivor_partial : forall T (c : cfg) (E : enumlike T), cfg_ok c -> roomy c -> compiles c E = true ->
  forall k, tame_survivor c E k -> forall n, ~ In MUB (m_survive c E n k [] []).
Proof. intros T c E H1 H2 H3 k Hk n. exact (@survive_safe _ _ _ H1 H2 H3 n k Hk [] [] (Forall_nil _)). Qed.
(** Agreement: the client sees what it would see with lists, where a call that allocates may
    also fail; a failed call leaves every vector as it was, except that extend and resize
    keep the elements already appended ([leaves], Client.v).  Everything the client does
    afterwards agrees with these lists. *)
Theorem C22_survivor_partial : forall T (c : cfg) (E : enumlike T), setting c E -> roomy c ->
  forall k, plain_survivor c E k -> forall p sp, Forall2 (holds c E) p sp ->
  forall n, explained E k n [] sp (m_survive c E n k [] p).
Proof. intros T c E Hs Hr k Hk p sp H n. exact (@survive_sim _ _ _ Hs Hr n k Hk [] p sp (inv_start Hs Hr H)). Qed.
(** three elements, two reserves that fail, a push because the first failed, and a look at the elements *)
Definition stubborn : survivor (Fin 4) := fun seen =>
  match length seen with
  | 0%nat => Some (OFromSlice [f4 3; f4 1; f4 2])
  | 1%nat => Some (OReserve 0 (usize_max u32_debug))
  | 2%nat => Some (OReserve 0 (usize_max u32_debug - 2))
  | 3%nat => match nth_error seen 1 with Some None => Some (OPush 0 (f4 1)) | _ => Some (OClear 0) end
  | 4%nat => Some (OToVec 0)
  | _ => None
  end.
Example C22_survivor_example : setting u32_debug (fin 4) /\ plain_survivor u32_debug (fin 4) stubborn /\ tame_survivor u32_debug (fin 4) stubborn /\
  m_survive u32_debug (fin 4) 9 stubborn [] [] = [MRes RUnit; MCap; MCap; MRes RUnit; MRes (RList [f4 3; f4 1; f4 2; f4 1])].
Proof.
  split; [apply fin_setting; [apply u32_debug_ok|reflexivity|discriminate]|].
  assert (H : forall seen o, stubborn seen = Some o -> plain_op u32_debug (fin 4) o = true /\ tame_op u32_debug (fin 4) o = true).
  { intros seen o. unfold stubborn. destruct (length seen) as [|[|[|[|[|?]]]]]; intros X; try (injection X as <-; split; reflexivity); [|discriminate].
    destruct (nth_error seen 1) as [[r|]|]; injection X as <-; split; reflexivity. }
  split; [intros seen o Ho; exact (proj1 (H _ _ Ho))|]. split; [intros seen o Ho; exact (proj2 (H _ _ Ho))|]. vm_compute. reflexivity.
Qed.

(** ** C46, end to end: vectors of a derived type *)
(** The derived implementation meets the trait's contract ([setting]), so every theorem about
    vectors and sets of lawful elements applies to it; [el c t] is the element type t. *)
Theorem C46_element_type : forall (c : cfg) d g n, cfg_ok c -> alloc_isize c -> well_named d -> derive_enum_like d = Some g ->
  k_nv (impl_code c (code_of c) d g) = Some n -> n <= 2 ^ 32 -> compiles c (el c (declared d)) = true ->
  setting c (el c (declared d)) /\ nv (el c (declared d)) = n /\
  forall x : typed (declared d),
    k_to (impl_code c (code_of c) d g) (proj1_sig x) = Ret (to_d (el c (declared d)) x) /\
    k_from (impl_code c (code_of c) d g) (to_d (el c (declared d)) x) = Ret (proj1_sig x).
Proof.
  intros c d g n Hc Hr Hw Hg Hn Hle Hcomp. destruct (C46_numbering c d g Hc Hw Hg) as [H1 H2]. rewrite Hn in H1. symmetry in H1. destruct (H2 n H1) as [H3 H4].
  destruct (C30_element_type c (declared d) n Hc Hr H1 Hcomp Hle) as [S1 [S2 [_ [S3 S4]]]]. split; [exact S1|]. split; [exact S2|].
  intros x. rewrite (H4 _ (proj2_sig x)), H3. split; [apply S3|apply S4].
Qed.
Theorem C46_vec : forall (c : cfg) d g n, cfg_ok c -> roomy c -> well_named d -> derive_enum_like d = Some g ->
  k_nv (impl_code c (code_of c) d g) = Some n -> n <= 2 ^ 32 -> compiles c (el c (declared d)) = true ->
  forall k, plain_client c (el c (declared d)) k -> forall m, agrees (m_play c (el c (declared d)) m k [] []) (v_play (el c (declared d)) m k [] []).
Proof.
  intros c d g n Hc Hr Hw Hg Hn Hle Hcomp k Hk m. apply C22_client_partial; [|exact Hr|exact Hk|constructor].
  exact (proj1 (C46_element_type c d g n Hc (roomy_isize Hc Hcomp Hr) Hw Hg Hn Hle Hcomp)).
Qed.
Example C46_vec_example : exists g, derive_enum_like d_enum = Some g /\
  k_nv (impl_code u32_debug (code_of u32_debug) d_enum g) = Some 11 /\ compiles u32_debug (el u32_debug (declared d_enum)) = true /\ roomy u32_debug.
Proof. eexists. split; [reflexivity|]. split; [vm_compute; reflexivity|]. split; [vm_compute; reflexivity|exact (proj2 u32_debug_ok)]. Qed.
