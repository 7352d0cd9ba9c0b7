(** PropAdaptive.v -- C21, C22, C23, C39, C44, C51 for adaptive clients, with conditions on the calls actually made (Adaptive.v)
    instead of conditions that hold in every state, and without a limit on memory. *)
From Verif Require Import ClientFacts Adaptive Witness MemFacts3 InlineFacts.
Open Scope N_scope.

Section Sim.
  Context {T : Type} {c : cfg} {E : enumlike T}.
  Hypothesis Hs : setting c E.
  Lemma adaptive_sim n k : forall seen p sp cl, PR (c := c) (E := E) p sp cl -> ok_client c E n k seen sp cl = true ->
    agrees (m_play c E n k seen p) (s_play E n k seen sp).
  Proof.
    induction n as [|n IH]; intros seen p sp cl H Hok; cbn [m_play s_play ok_client] in *; [constructor|].
    destruct (k seen) as [o|]; [|constructor]. apply andb_true_iff in Hok. destruct Hok as [Ho Hok].
    pose proof (step_sim (s_ok Hs) (s_comp Hs) (s_alloc Hs) (s_d Hs) (s_fd Hs) H Ho) as G.
    destruct (m_step c E p o) as [r p']. destruct (s_step (to_d E) sp o) as [x sp']. unfold sim in G. cbn [fst snd] in G.
    destruct G as [[-> G]|[->| ->]]; [|constructor|constructor]. constructor. exact (IH _ _ _ _ G Hok).
  Qed.
  Lemma PR_holds p sp cl : Forall2 (holds c E) p sp -> Forall2 (fun v (b : bool) => b = true -> tidy c E v) p cl -> PR (c := c) (E := E) p sp cl.
  Proof.
    intros H Hb. split; [clear -H; induction H; cbn; congruence|]. split; [clear -Hb; induction Hb; cbn; congruence|].
    revert cl Hb. induction H as [|w l0 p sp H0 H IH]; intros cl Hb r v l b Hv Hl Hr; [destruct r; discriminate|].
    inversion Hb as [|? b0 ? cl' Hb0 Hb1]; subst. destruct r as [|r]; cbn in Hv, Hl, Hr.
    - injection Hv as <-. injection Hl as <-. injection Hr as <-. destruct b0.
      + apply (holds_tidy_RC Hs); auto.
      + apply (holds_RC Hs). assumption.
    - exact (IH cl' Hb1 r v l b Hv Hl Hr).
  Qed.
  Lemma adaptive_fed m room (Hg : serves c m room) (Hm : EPB c E * m + EPB c E <= usize_max c) n k : forall seen p sp cl,
    PR (c := c) (E := E) p sp cl -> Forall (fun v => capok room v /\ small_st m v) p -> ok_client c E n k seen sp cl = true ->
    client_demands c E n k seen sp <= m -> m_play c E n k seen p = map (@MRes T) (s_play E n k seen sp).
  Proof.
    induction n as [|n IH]; intros seen p sp cl H HI Hok HD; cbn [m_play s_play ok_client client_demands] in *; [reflexivity|].
    destruct (k seen) as [o|]; [|reflexivity]. apply andb_true_iff in Hok. destruct Hok as [Ho Hok].
    pose proof (step_sim (s_ok Hs) (s_comp Hs) (s_alloc Hs) (s_d Hs) (s_fd Hs) H Ho) as G.
    rewrite <- (PR_lens Hs Hm H) in HD.
    destruct (step_fed (s_ok Hs) Hm (proj1 (proj2 (proj2 Hs))) Hg HI (o := o)) as [F1 F2]; [lia|].
    destruct (m_step c E p o) as [r p']. destruct (s_step (to_d E) sp o) as [x sp']. unfold sim in G. cbn [fst snd] in *.
    destruct G as [[-> G]|[->| ->]]; cbn in F1; try contradiction. cbn [map]. f_equal. exact (IH _ _ _ _ G F2 Hok ltac:(lia)).
  Qed.
  Lemma client_inline_demands (Hk : keeps_inline c) n k : forall seen sp, client_inline E n k seen sp = true -> client_demands c E n k seen sp <= 4.
  Proof.
    induction n as [|n IH]; intros seen sp; cbn [client_inline client_demands]; [lia|]. destruct (k seen) as [o|]; [|lia].
    rewrite andb_true_iff, (fits_demand (s_ok Hs) (proj1 (proj2 (proj2 Hs))) Hk). destruct (s_step (to_d E) sp o) as [x sp']. intros [H1 H2]. specialize (IH _ _ H2). lia.
  Qed.
End Sim.

(** ** C22 *)
(** Any vectors p holding the lists sp ([] and [] for a client that starts with none); a flag [true] says that a vector's
    unused bits are known to be zero. *)
Theorem C22_adaptive_partial : forall T (c : cfg) (E : enumlike T), setting c E ->
  forall p sp cl, Forall2 (holds c E) p sp -> Forall2 (fun v (b : bool) => b = true -> tidy c E v) p cl ->
  forall n k, ok_client c E n k [] sp cl = true -> agrees (m_play c E n k [] p) (s_play E n k [] sp).
Proof. intros T c E Hs p sp cl H Hb n k Hok. exact (adaptive_sim Hs n k [] p sp cl (PR_holds Hs p sp cl H Hb) Hok). Qed.
(** ** C23 *)
Theorem C23_adaptive_partial : forall T (c1 c2 : cfg) (E : enumlike T), setting c1 E -> setting c2 E ->
  forall n k, ok_client c1 E n k [] [] [] = true -> ok_client c2 E n k [] [] [] = true ->
  Forall completed (m_play c1 E n k [] []) -> Forall completed (m_play c2 E n k [] []) ->
  m_play c1 E n k [] [] = m_play c2 E n k [] [].
Proof.
  intros T c1 c2 E H1 H2 n k O1 O2 C1 C2.
  rewrite (agrees_completed (C22_adaptive_partial T c1 E H1 [] [] [] (Forall2_nil _) (Forall2_nil _) n k O1) C1).
  rewrite (agrees_completed (C22_adaptive_partial T c2 E H2 [] [] [] (Forall2_nil _) (Forall2_nil _) n k O2) C2). reflexivity.
Qed.
(** ** C39 *)
Theorem C39_adaptive_partial : forall T (c : cfg) (E : enumlike T), setting c E ->
  forall p q sp cl, Forall2 (holds c E) p sp -> Forall2 (holds c E) q sp ->
  Forall2 (fun v (b : bool) => b = true -> tidy c E v) p cl -> Forall2 (fun v (b : bool) => b = true -> tidy c E v) q cl ->
  forall n k, ok_client c E n k [] sp cl = true ->
  Forall completed (m_play c E n k [] p) -> Forall completed (m_play c E n k [] q) ->
  m_play c E n k [] p = m_play c E n k [] q.
Proof.
  intros T c E Hs p q sp cl Hp Hq Tp Tq n k Ho C1 C2.
  rewrite (agrees_completed (C22_adaptive_partial T c E Hs p sp cl Hp Tp n k Ho) C1), (agrees_completed (C22_adaptive_partial T c E Hs q sp cl Hq Tq n k Ho) C2). reflexivity.
Qed.
(** ** C21 *)
Theorem C21_adaptive_partial : forall T (c : cfg) (E : enumlike T), cfg_ok c -> alloc_isize c -> compiles c E = true ->
  forall p, Forall (valid c E) p -> forall n k, safe_client c E n k [] p = true -> ~ In MUB (m_play c E n k [] p).
Proof.
  intros T c E Hc Ha Hcomp p Hp n k. generalize (@nil (res T)) as seen. revert p Hp. induction n as [|n IH]; intros p Hp seen Hok; cbn [m_play safe_client] in *; [intros []|].
  destruct (k seen) as [o|]; [|intros []]. apply andb_true_iff in Hok. destruct Hok as [Ho Hok].
  destruct (any_steps Hc Hcomp Ha Hp Ho) as [H1 H2]. destruct (m_step c E p o) as [[x| | |] p']; cbn [fst snd] in *; cbn [In]; try (intros [X|[]]; congruence).
  intros [X|X]; [discriminate|]. exact (IH _ (H2 ltac:(discriminate)) _ Hok X).
Qed.

(** ** C44: given the memory it asks for, every such client gets exactly Vec's answers *)
Theorem C44_client : forall T (c : cfg) (E : enumlike T), setting c E ->
  forall n k, ok_client c E n k [] [] [] = true -> provides c E (client_demands c E n k [] []) ->
  m_play c E n k [] [] = map (@MRes T) (s_play E n k [] []).
Proof.
  intros T c E Hs n k Hok [Hg Hm]. exact (adaptive_fed Hs _ _ (grants_serves Hg) Hm n k [] [] [] [] (PR_nil (s_ok Hs) (s_comp Hs) (s_alloc Hs) (s_d Hs) (s_fd Hs)) (Forall_nil _) Hok (N.le_refl _)).
Qed.
(** ** C51: a client of SmallEnumVecs that keeps to the inline buffers, too, even without any heap *)
Theorem C51_client_partial : forall T (c : cfg) (E : enumlike T), setting c E -> keeps_inline c ->
  forall n k, ok_client c E n k [] [] [] = true -> client_inline E n k [] [] = true ->
  m_play c E n k [] [] = map (@MRes T) (s_play E n k [] []).
Proof.
  intros T c E Hs Hk n k Hok Hi. apply (client_inline_demands Hs Hk) in Hi.
  exact (adaptive_fed Hs _ _ (inline_serves (s_ok Hs) Hk) (inline_roomy (s_ok Hs) (proj1 (proj2 (proj2 Hs))) Hk) n k [] [] [] [] (PR_nil (s_ok Hs) (s_comp Hs) (s_alloc Hs) (s_d Hs) (s_fd Hs)) (Forall_nil _) Hok Hi).
Qed.

(** A client of three-bit elements (10 to a block, 2 bits unused) that no client of [plain_client] may imitate: it removes elements
    until len() is 2, inserting one when a removed element was 4, and then appends one vector to the other. *)
Definition picky : client (Fin 5) := fun seen =>
  match rev seen with
  | [] => Some (OFromSlice (map f5 [1; 4; 2; 0; 3]))
  | [RUnit] => Some (OFromSlice (map f5 [2; 2]))
  | RVal x :: _ => if to_d (fin 5) x =? 4 then Some (OPush 0 (f5 3)) else Some (OLen 0)
  | RUnit :: _ => Some (OLen 0)
  | RNum 2 :: _ => Some (OAppend 0 1)
  | RNum 4 :: _ => if Nat.ltb 12 (length seen) then Some (OToVec 0) else Some (ORemove 0 1)
  | RNum _ :: _ => Some (ORemove 0 1)
  | _ => None
  end.
Example C22_adaptive_example :
  ok_client u32_debug (fin 5) 20 picky [] [] [] = true /\ ok_client u64_release (fin 5) 20 picky [] [] [] = true /\
  safe_client u32_debug (fin 5) 20 picky [] [] = true /\
  m_play u32_debug (fin 5) 20 picky [] [] = map (@MRes _) (s_play (fin 5) 20 picky [] []) /\
  client_demands u32_debug (fin 5) 20 picky [] [] = 1 /\
  last (s_play (fin 5) 20 picky [] []) RUnit = RList (map f5 [1; 3; 2; 2]) /\
  plain_op u32_debug (fin 5) (ORemove 0 1 : op (Fin 5)) = false /\ plain_op u32_debug (fin 5) (OAppend 0 1 : op (Fin 5)) = false.
Proof. repeat split; vm_compute; reflexivity. Qed.
(** It needs one block, so it finishes with Vec's answers. *)
(** With no heap at all, in SmallEnumVecs, it does too. *)
Definition stack_only := std_cfg 32 64 false true 4.
Example C51_client_example : ok_client stack_only (fin 5) 20 picky [] [] [] = true /\ client_inline (fin 5) 20 picky [] [] = true /\ setting stack_only (fin 5) /\ keeps_inline stack_only.
Proof.
  split; [vm_compute; reflexivity|]. split; [vm_compute; reflexivity|]. split; [|split; [reflexivity|]; intros n; cbn; lia].
  apply fin_setting; [split; [apply std_cfg_ok; cbn; auto 10|reflexivity]; intros _; split; [reflexivity|discriminate]|reflexivity|discriminate].
Qed.
Example C44_client_example : setting u32_debug (fin 5) /\ provides u32_debug (fin 5) (client_demands u32_debug (fin 5) 20 picky [] []).
Proof.
  split; [apply fin_setting; [apply u32_debug_ok|reflexivity|discriminate]|]. split.
  - intros cap need H1 H2. assert (E : client_demands u32_debug (fin 5) 20 picky [] [] = 1) by (vm_compute; reflexivity). rewrite E in H2.
    assert (cap = 0) by lia. assert (need = 1) by lia. subst. split; vm_compute; discriminate.
  - vm_compute. discriminate.
Qed.
