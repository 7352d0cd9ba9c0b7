(** Witness.v -- concrete configurations, element types and vectors, used by the
    examples and counterexamples of Prop*.v. *)
From Verif Require Export ClaimFacts3.
Open Scope N_scope.
Set Implicit Arguments.

Definition validb {T} (c : cfg) (E : enumlike T) (v : ev) : bool :=
  forallb (fun b => b <? 2 ^ W c) (data (storage v)) && (len v <=? EPB c E * vlen (storage v)) &&
  (vlen (storage v) <=? vcap (storage v)) && (vcap (storage v) <=? alloc_max c) && (len v <=? usize_max c).
Lemma validb_valid T (c : cfg) (E : enumlike T) v : validb c E v = true -> valid c E v.
Proof.
  unfold validb. rewrite !andb_true_iff, !N.leb_le, forallb_forall. intros [[[[H1 H2] H3] H4] H5].
  split; [|auto]. intros b Hb. apply N.ltb_lt, H1, Hb.
Qed.
Definition tidyb {T} (c : cfg) (E : enumlike T) (v : ev) : bool :=
  forallb (fun b => b <? 2 ^ (EPB c E * BITS E)) (data (storage v)).
Lemma tidyb_tidy T (c : cfg) (E : enumlike T) v : tidyb c E v = true <-> tidy c E v.
Proof.
  unfold tidyb, tidy. rewrite forallb_forall. split; intros H b Hb; apply N.ltb_lt, H, Hb.
Qed.
Lemma fin_setting c n : cfg_ok c /\ roomy c -> compiles c (fin n) = true -> n <= 2 ^ 32 -> setting c (fin n).
Proof. intros [H1 H2] H3 H4. split; [exact H1|]. split; [exact (roomy_isize H1 H3 H2)|]. split; [split; assumption|apply fin_lawful]. Qed.

(** an enum of 5 variants (3 bits: 10 per u32, 2 unused bits) and one of 8 in Vec<u32>;
    one of 256 in Vec<u8> (8 bits: one per block); 4 variants (2 bits, no unused bits). *)
Lemma s_u32d_5 : setting u32_debug (fin 5). Proof. apply fin_setting; [apply u32_debug_ok|reflexivity|discriminate]. Qed.
Lemma s_u32r_5 : setting u32_release (fin 5). Proof. apply fin_setting; [apply u32_release_ok|reflexivity|discriminate]. Qed.
Lemma s_u32d_8 : setting u32_debug (fin 8). Proof. apply fin_setting; [apply u32_debug_ok|reflexivity|discriminate]. Qed.
Lemma s_u32r_8 : setting u32_release (fin 8). Proof. apply fin_setting; [apply u32_release_ok|reflexivity|discriminate]. Qed.
Lemma s_u32r_4 : setting u32_release (fin 4). Proof. apply fin_setting; [apply u32_release_ok|reflexivity|discriminate]. Qed.
Lemma s_u8d_256 : setting u8_debug (fin 256). Proof. apply fin_setting; [apply u8_debug_ok|reflexivity|discriminate]. Qed.
Lemma s_u8r_256 : setting u8_release (fin 256). Proof. apply fin_setting; [apply u8_release_ok|reflexivity|discriminate]. Qed.
Lemma s_u64r_5 : setting u64_release (fin 5). Proof. apply fin_setting; [apply u64_release_ok|reflexivity|discriminate]. Qed.
Lemma s_small_5 : setting small_release (fin 5). Proof. apply fin_setting; [apply small_release_ok|reflexivity|discriminate]. Qed.

(** The i-th value of [Fin n] (n > 0). *)
Definition f5 (x : N) : Fin 5 := match mkFin 5 x with Some y => y | None => fv 5 0 eq_refl end.
Definition f8 (x : N) : Fin 8 := match mkFin 8 x with Some y => y | None => fv 8 0 eq_refl end.
Definition f4 (x : N) : Fin 4 := match mkFin 4 x with Some y => y | None => fv 4 0 eq_refl end.
Definition f256 (x : N) : Fin 256 := match mkFin 256 x with Some y => y | None => fv 256 0 eq_refl end.

(** The vector left by a program (the first of its pool), and what it reported. *)
Definition after {T} (c : cfg) (E : enumlike T) (prog : list (op T)) : ev :=
  nth 0 (snd (m_run c E [] prog)) (ev_new c).
Definition seen {T} (c : cfg) (E : enumlike T) (prog : list (op T)) : list (mout T) := fst (m_run c E [] prog).
Definition as_vec {T} (disc : T -> N) (prog : list (op T)) : list (res T) := fst (s_run disc [] prog).

(** A vector of 5-variant elements with a history: 12 elements, then stale elements, and
    dirty unused bits left by insert. *)
Definition old_prog : list (op (Fin 5)) :=
  [OFromSlice (map f5 [1;2;3;4;0;1;2;3;4;0;1;2;3;4;0;1;2;3;4]); OInsert 0 0 (f5 3); OPush 0 (f5 4); OTruncate 0 12].
Definition old_vec (c : cfg) : ev := after c (fin 5) old_prog.
Definition old_list : list (Fin 5) := map f5 [3;1;2;3;4;0;1;2;3;4;0;1].

Lemma old_vec_debug : holds u32_debug (fin 5) (old_vec u32_debug) old_list.
Proof. apply (holds_hash s_u32d_5); [apply validb_valid; vm_compute; reflexivity|vm_compute; reflexivity]. Qed.
Lemma old_vec_release : holds u32_release (fin 5) (old_vec u32_release) old_list.
Proof. apply (holds_hash s_u32r_5); [apply validb_valid; vm_compute; reflexivity|vm_compute; reflexivity]. Qed.
Lemma old_vec_small : holds small_release (fin 5) (old_vec small_release) old_list.
Proof. apply (holds_hash s_small_5); [apply validb_valid; vm_compute; reflexivity|vm_compute; reflexivity]. Qed.
(** it really is dirty, and carries stale elements *)
Example old_vec_dirty : ~ tidy u32_debug (fin 5) (old_vec u32_debug) /\ vlen (storage (old_vec u32_debug)) = 3.
Proof. split; [|vm_compute; reflexivity]. rewrite <- tidyb_tidy. vm_compute. discriminate. Qed.

(** A clean one. *)
Definition new_prog : list (op (Fin 5)) := [OFromSlice (map f5 [1;2;3;4;0;1;2;3;4;0;1;2;3])].
Definition new_vec (c : cfg) : ev := after c (fin 5) new_prog.
Definition new_list : list (Fin 5) := map f5 [1;2;3;4;0;1;2;3;4;0;1;2;3].
Lemma new_vec_debug : holds u32_debug (fin 5) (new_vec u32_debug) new_list /\ tidy u32_debug (fin 5) (new_vec u32_debug).
Proof.
  split; [|apply tidyb_tidy; vm_compute; reflexivity].
  apply (holds_hash s_u32d_5); [apply validb_valid; vm_compute; reflexivity|vm_compute; reflexivity].
Qed.

(** One element per block. *)
Definition wide_prog : list (op (Fin 256)) := [OFromSlice (map f256 [7; 200; 9])].
Definition wide_vec (c : cfg) : ev := after c (fin 256) wide_prog.
Definition wide_list : list (Fin 256) := map f256 [7; 200; 9].
Lemma wide_debug : holds u8_debug (fin 256) (wide_vec u8_debug) wide_list.
Proof. apply (holds_hash s_u8d_256); [apply validb_valid; vm_compute; reflexivity|vm_compute; reflexivity]. Qed.
Lemma wide_release : holds u8_release (fin 256) (wide_vec u8_release) wide_list.
Proof. apply (holds_hash s_u8r_256); [apply validb_valid; vm_compute; reflexivity|vm_compute; reflexivity]. Qed.
