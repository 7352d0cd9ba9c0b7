(** EffFacts.v -- how densely elements are packed (README "Memory efficiency"): specification and proofs. *)
From Verif Require Import WidthFacts.
Open Scope N_scope.
Set Implicit Arguments.

(** Bits an element of b <= 32 bits takes in a Vec of the smallest integer type that can hold it. *)
Definition vec_bits (b : N) : N := if b <=? 8 then 8 else if b <=? 16 then 16 else 32.
(** A full block of the storage takes fewer bits than its elements take in a Vec. *)
Definition better {T} (c : cfg) (E : enumlike T) : Prop := W c < EPB c E * vec_bits (BITS E).
(** The largest element size for which the storage with w-bit blocks is better than a Vec. *)
Definition limit (w : N) : N :=
  if w =? 8 then 4 else if w =? 16 then 5 else if w =? 32 then 10 else if w =? 64 then 21 else 25.
(** ... and what README.md:155-164 says. *)
Definition readme_limit (w : N) : N :=
  if w =? 8 then 4 else if w =? 16 then 4 else if w =? 32 then 11 else if w =? 64 then 22 else 42.

Definition widths : list N := map N.of_nat (seq 1 32).
Lemma in_widths b : 1 <= b -> b <= 32 -> In b widths.
Proof. intros H1 H2. apply in_map_iff. exists (N.to_nat b). split; [lia|]. apply in_seq. lia. Qed.
Lemma check_all (f : N -> N -> bool) : forallb (fun w => forallb (f w) widths) [8; 16; 32; 64; 128] = true ->
  forall w b, In w [8; 16; 32; 64; 128] -> 1 <= b -> b <= 32 -> f w b = true.
Proof. intros H w b Hw H1 H2. rewrite forallb_forall in H. specialize (H w Hw). rewrite forallb_forall in H. apply H. exact (in_widths H1 H2). Qed.

Section Eff.
  Context {T : Type} {c : cfg} {E : enumlike T}.
  Hypothesis Hc : cfg_ok c.
  Hypothesis Hcomp : compiles c E = true.
  Let HB : 1 <= BITS E /\ BITS E <= 32 /\ BITS E <= W c.
  Proof. pose proof (BITS_range Hc Hcomp). tauto. Qed.
  Lemma waste : EPB c E * BITS E + W c mod BITS E = W c.
  Proof. unfold EPB. pose proof (N.div_mod (W c) (BITS E) ltac:(lia)). lia. Qed.
  Lemma waste_none : W c mod BITS E = 0 <-> In (BITS E) [1; 2; 4; 8; 16; 32].
  Proof.
    destruct HB as (H1 & H2 & H3). 
    pose proof (@check_all (fun w b => (w <? b) || Bool.eqb (w mod b =? 0) (existsb (N.eqb b) [1; 2; 4; 8; 16; 32])) ltac:(vm_compute; reflexivity) (W c) (BITS E) (ok_W Hc) H1 H2) as K.
    cbv beta in K. rewrite (proj2 (N.ltb_ge _ _)) in K by exact H3. rewrite orb_false_l in K. apply Bool.eqb_prop in K. rewrite <- N.eqb_eq, K, existsb_exists. split.
    - intros (x & G1 & G2). apply N.eqb_eq in G2. rewrite G2. exact G1.
    - intros G. exists (BITS E). split; [exact G|apply N.eqb_refl].
  Qed.
  Lemma better_limit : better c E -> BITS E <= limit (W c).
  Proof.
    destruct HB as (H1 & H2 & H3). unfold better, EPB. rewrite <- N.ltb_lt, <- N.leb_le.
    pose proof (@check_all (fun w b => implb (w <? (w / b) * vec_bits b) (b <=? limit w)) ltac:(vm_compute; reflexivity) (W c) (BITS E) (ok_W Hc) H1 H2) as K. cbv beta in K.
    intros G. rewrite G in K. exact K.
  Qed.
  Lemma at_limit : BITS E = limit (W c) -> better c E.
  Proof.
    intros G. unfold better, EPB. rewrite G. pose proof (ok_W Hc) as Hw. cbn in Hw. destruct Hw as [<-|[<-|[<-|[<-|[<-|[]]]]]]; reflexivity.
  Qed.
End Eff.
