(** Conformance2.v -- the tests of enum_like, enum_like_derive (in example/src) and enum_set of
    /repo, transcribed and run on the model.  Tests, not theorems: see Conformance.v. *)
From Coq Require Import String.
From Verif Require Import Config EnumLike Derive DeriveSpec Builtin EnumSet.
From Coq Require Import List.
Close Scope string_scope.
Open Scope N_scope.
Set Implicit Arguments.

Definition elem (k : code) : enumlike val := {|
  nv := num_variants k;
  to_d := fun v => match k_to k v with Ret d => d | _ => 0 end;
  from_d := fun d => match k_from k d with Ret v => Some v | _ => None end |}.
Definition upto (n : nat) : list N := map N.of_nat (seq 0 n).
(** the profiles and targets in which the tests run *)
Definition hosts : list cfg := [u32_debug; u32_release; std_cfg 32 32 true false (2 ^ 20); std_cfg 32 32 false false (2 ^ 20)].

Fixpoint val_eqb (v w : val) {struct v} : bool :=
  let fix all2 (l m : list val) : bool := match l, m with [], [] => true | x :: l', y :: m' => val_eqb x y && all2 l' m' | _, _ => false end in
  match v, w with
  | VUnit, VUnit | VNone, VNone => true
  | VBool a, VBool b => Bool.eqb a b
  | VSome a, VSome b | VOk a, VOk b | VErr a, VErr b => val_eqb a b
  | VSeq l, VSeq m => all2 l m
  | VVariant j l, VVariant k m => Nat.eqb j k && all2 l m
  | VUser a, VUser b => a =? b
  | _, _ => false
  end.
Fixpoint distinct (l : list val) : bool :=
  match l with [] => true | x :: l' => negb (existsb (val_eqb x) l') && distinct l' end.

(** for i in T::values(): next until None *)
Fixpoint drain (c : cfg) (k : code) (fuel : nat) (s : values) : option (list val) :=
  match values_next c (elem k) s with
  | (Ret None, _) => Some []
  | (Ret (Some x), s') => match fuel with O => None | S f => option_map (cons x) (drain c k f s') end
  | _ => None
  end.
Definition all_values (c : cfg) (k : code) : option (list val) := drain c k (N.to_nat (num_variants k)) (values_of (elem k)).
(** check_values_of::<T>(x), enum_like/src/lib.rs:650-676 and example/src/main.rs:64-90 *)
Definition check_values_of (c : cfg) (k : code) (x : N) : bool :=
  match all_values c k with
  | None => false
  | Some l =>
      forallb (fun v => match k_to k v with
                        | Ret i => match k_from k i with
                                   | Ret w => val_eqb v w && match k_to k w with Ret j => j =? i | _ => false end
                                   | _ => false
                                   end
                        | _ => false
                        end) l &&
      distinct l &&
      match k_nv k with Some n => (lenN l =? n) && (x =? n) | None => false end
  end.
Definition check (ts : list (ty * N)) : Prop := forallb (fun c => forallb (fun t => check_values_of c (code_of c (fst t)) (snd t)) ts) hosts = true.
Ltac run := vm_compute; reflexivity.

(** ** enum_like/src/lib.rs:647-938 *)
Definition ABC := TUser 3 [].
Definition Digit := TUser 10 [].
Notation Res := TResult. Notation Opt := TOption.
(** lib.rs:771-785 *)
Example values_of_abc : v_run u32_debug (elem (code_of u32_debug ABC)) [VNext; VNext; VNext; VNext] (values_of (elem (code_of u32_debug ABC))) =
  (Ret [VItem (Some (VUser 0)); VItem (Some (VUser 1)); VItem (Some (VUser 2)); VItem None], mkValues 3 3).
Proof. run. Qed.
Example values_of_digit : values_count u32_debug (values_of (elem (code_of u32_debug Digit))) = Ret 10.
Proof. run. Qed.
(** lib.rs:787-804 *)
Example check_builtin_impls : check
  [(TUnit, 1); (TBool, 2); (Opt TUnit, 2); (Opt TBool, 3); (Res TUnit TUnit, 2); (Res TBool TUnit, 3); (Res TUnit TBool, 3); (Res TBool TBool, 4);
   (TTuple [TUnit], 1); (TTuple [TUnit; TUnit], 1); (TTuple [TUnit; TUnit; TUnit], 1);
   (TTuple [TBool], 2); (TTuple [TBool; TBool], 2 * 2); (TTuple [TBool; TBool; TBool], 2 * 2 * 2)].
Proof. run. Qed.
(** lib.rs:806-864; as_bool_vec, 810-822: the bits of x, least significant first *)
Definition as_bool_vec (x : N) (n : nat) : val := VSeq (map (fun i => VBool (N.testbit x i)) (upto n)).
(** m calls of next give the arrays of the numbers from v_current on; then, if [last], None *)
Fixpoint nexts (c : cfg) (k : code) (n m : nat) (last : bool) (s : values) : bool :=
  match m with
  | O => if last then match values_next c (elem k) s with (Ret None, _) => true | _ => false end else true
  | S m' => match values_next c (elem k) s with
            | (Ret (Some v), s') => val_eqb v (as_bool_vec (v_current s) n) && nexts c k n m' last s'
            | _ => false
            end
  end.
Definition array_impl_n (c : cfg) (n : nat) : bool :=
  let k := code_of c (TArray n TBool) in nexts c k n (2 ^ n)%nat true (values_of (elem k)).
Example check_array_impls : forallb (array_impl_n u32_debug) (seq 0 13) = true.
Proof. run. Qed.
(** 13 to 32: the first 100 values and the last 10 (skip is nth, one less) *)
Definition array_impl_n_short (c : cfg) (n : nat) : bool :=
  let k := code_of c (TArray n TBool) in let m := 2 ^ N.of_nat n in
  nexts c k n 100 false (values_of (elem k)) &&
  match values_nth c (elem k) (m - 11) (values_of (elem k)) with
  | (Ret (Some _), s) => (v_current s =? m - 10) && nexts c k n 10 true s
  | _ => false
  end.
Example check_array_impls_short : forallb (array_impl_n_short u32_debug) (seq 13 20) = true.
Proof. run. Qed.
(** lib.rs:866-882 *)
Example check_tuple_array_equivalency :
  let a := code_of u32_debug (TTuple [TBool; TBool; TBool; TBool]) in let b := code_of u32_debug (TArray 2 (TArray 2 TBool)) in
  option_map (map (fun v => match v with VSeq [x; y; z; w] => VSeq [VSeq [x; y]; VSeq [z; w]] | _ => v end)) (all_values u32_debug a) = all_values u32_debug b /\
  num_variants a = 16 /\ num_variants b = 16.
Proof. vm_compute. repeat split. Qed.
(** lib.rs:721-769, 884-889 *)
Definition mod256 (x : N) : val := VUser (x mod 256).
Definition two_digits : code := mkCode (Some 100)
  (fun v => match v with VSeq [VUser t; VUser o] => Ret (t * 10 + o) | _ => ill_typed end)
  (fun x => Ret (VSeq [mod256 (x / 10); mod256 (x mod 10)])).
Definition three_digits : code := mkCode (Some 1000)
  (fun v => match v with VSeq [VUser h; VUser t; VUser o] => Ret (h * 10 * 10 + t * 10 + o) | _ => ill_typed end)
  (fun x => Ret (VSeq [mod256 (x / 100); mod256 ((x / 10) mod 10); mod256 (x mod 10)])).
Example check_test_impls : check [(ABC, 3); (Digit, 10)] /\ forallb (fun c => check_values_of c two_digits 100) hosts = true.
Proof. split; run. Qed.
(** lib.rs:891-905.  (The documentation of EnumValues, lib.rs:552-558, shows the values in another order.) *)
Definition NestedOptionBool := Opt (Opt (Opt TBool)).
Example nested_option_bool : check [(NestedOptionBool, 5)] /\
  all_values u32_debug (code_of u32_debug NestedOptionBool) =
  Some [VSome (VSome (VSome (VBool false))); VSome (VSome (VSome (VBool true))); VSome (VSome VNone); VSome VNone; VNone].
Proof. split; run. Qed.
(** lib.rs:907-915 *)
Definition Abomination := Res (Res (Opt TUnit) TBool) (Res TUnit (Opt TBool)).
Example result_option_unit : check [(Abomination, 8)] /\
  let E := elem (code_of u32_debug Abomination) in
  fst (values_nth u32_debug E 1 (values_of E)) = Ret (Some (VOk (VOk VNone))) /\
  values_last u32_debug E (values_of E) = Ret (Some (VErr (VErr VNone))).
Proof. split; [run|]. vm_compute. split; reflexivity. Qed.
(** lib.rs:917-926, 928-937 (b is Some(..) of the 124th value) *)
Definition opt_three (c : cfg) : enumlike val := elem (option_code c three_digits).
Example packed_u8_u16 : let c := u32_debug in
  packed_new (elem (code_of c TBool)) 8 (VBool false) = Some (Ret 0) /\ packed_get (elem (code_of c TBool)) 0 = Ret (VBool false) /\
  packed_new (opt_three c) 16 (VSome (VSeq [VUser 1; VUser 2; VUser 3])) = Some (Ret 123) /\
  packed_get (opt_three c) 123 = Ret (VSome (VSeq [VUser 1; VUser 2; VUser 3])) /\
  packed_new (opt_three c) 8 (VSome (VSeq [VUser 1; VUser 2; VUser 3])) = None.
Proof. vm_compute. repeat split. Qed.

(** ** example/src/main.rs: #[derive(EnumLike)], through the tokens the macro emits *)
(** Declarations over codes: a field's type is its implementation. *)
Definition derived (c : cfg) (d : decl code) : code :=
  match derive_enum_like d with Some g => impl_code c (fun k => k) d g | None => mkCode None (fun _ => ill_typed) (fun _ => ill_typed) end.
Definition chk (c : cfg) (n : N) (ds : list code) : bool := forallb (fun k => check_values_of c k n) ds.
Open Scope string_scope.
(** main.rs:92-203 unit_types *)
Definition unit_types (c : cfg) : list code :=
  let t k := code_of c k in
  let a := derived c (DStruct Unit) in let b := derived c (DStruct (Named [])) in let c' := derived c (DStruct (Unnamed [])) in
  let d := derived c (DEnum [("OneValue", Unit)]) in
  let e := derived c (DEnum [("OneUnnamedValue", Unnamed [d])]) in
  let f := derived c (DEnum [("OneUnnamedValue", Unnamed [d; e])]) in
  let g := derived c (DEnum [("OneUnnamedValue", Unnamed [d; e; f])]) in
  let h := derived c (DEnum [("OneNamedValue", Named [("e", e)])]) in
  let h2 := derived c (DEnum [("OneNamedValue", Named [("e", e); ("f", f)])]) in
  let h3 := derived c (DEnum [("OneNamedValue", Named [("e", e); ("f", f); ("g", g)])]) in
  let h4 := derived c (DEnum [("OneNamedValue", Named [("e", e); ("f", f); ("g", g); ("h", h)])]) in
  let i := derived c (DEnum [("ProductOfOneIsOne", Unnamed [a; b; c'; d; e; f; g; h])]) in
  [t TUnit; t (TTuple [TUnit]); t (TTuple [TUnit; TUnit]); t (TTuple [TUnit; TUnit; TUnit]); a; b; c'; d; e; f; g; h; h2; h3; h4; i;
   derived c (DStruct (Unnamed [a; b; c'; d; e; f; g; h])); derived c (DStruct (Unnamed [a; b; c'; d])); derived c (DStruct (Unnamed [a; b; c']));
   derived c (DStruct (Unnamed [a; b])); derived c (DStruct (Unnamed [a]));
   derived c (DStruct (Named [("a", a); ("b", b); ("c", c'); ("d", d)])); derived c (DStruct (Named [("a", a); ("b", b); ("c", c')]));
   derived c (DStruct (Named [("a", a); ("b", b)])); derived c (DStruct (Named [("a", a)]))].
Example unit_types_ok : forallb (fun c => chk c 1 (unit_types c)) hosts = true. Proof. run. Qed.
(** main.rs:205-264 never_types *)
Definition never (c : cfg) : code := derived c (DEnum []).
Definition arms (e : code) : list (variant code) := [("B", Unnamed [e; e]); ("C", Named [("e", e)]); ("D", Named [("e", e); ("d", e)])].
Definition two_var (c : cfg) : code := let e := never c in derived c (DEnum (("A", Unnamed [e]) :: ("A1", Unit) :: arms e ++ [("E", Unit)])%list).
Example never_types : forallb (fun c => let e := never c in
  chk c 0 [e; tuple_code c [e; e]; tuple_code c [e; e; e]; derived c (DEnum (("A", Unnamed [e]) :: arms e))] &&
  chk c 1 [derived c (DEnum (("A", Unnamed [e]) :: arms e ++ [("E", Unit)])%list)] &&
  chk c 2 [two_var c] &&
  chk c (2 + 2) [derived c (DEnum (("A", Unnamed [e]) :: ("A1", Unnamed [code_of c TBool]) :: arms e ++ [("E", Unnamed [two_var c])])%list)]) hosts = true.
Proof. run. Qed.
(** main.rs:267-300 derive_clike_enum (explicit discriminants play no role) *)
Definition clike (names : list string) : decl code := DEnum (map (fun s => (s, Unit)) names).
Example derive_clike_enum : forallb (fun c =>
  chk c 1 [derived c (clike ["A"])] && chk c 2 [derived c (clike ["A"; "B"])] && chk c 3 [derived c (clike ["Read"; "Write"; "Exec"])] &&
  chk c 4 [derived c (clike ["True"; "False"; "Truey"; "Falsey"])]) hosts = true.
Proof. run. Qed.
(** main.rs:302-314 derive_rust_enum *)
Example derive_rust_enum : forallb (fun c => let b := code_of c TBool in
  chk c (3 + 2 * 2 * 2 + 2 * 2) [derived c (DEnum [("Not", Unit); ("Maybe", Unit); ("Probably", Unit);
    ("Always", Named [("x0", b); ("x1", b); ("x2", b)]); ("MeToo", Unnamed [b; b])])]) hosts = true.
Proof. run. Qed.
(** main.rs:316-326 from_discr_invalid_value: should panic *)
Example from_discr_invalid_value : forall c, In c hosts -> exists k, k_from (derived c (clike ["Read"; "Write"; "Exec"])) 4 = Panic k.
Proof. intros c H. cbn in H. repeat (destruct H as [<-|H]; [eexists; vm_compute; reflexivity|]). destruct H. Qed.
(** main.rs:328-353 invalid_impl: should panic *)
Definition bad_option (t : code) : code := mkCode (option_map (N.add 1) (k_nv t))
  (fun v => match v with VNone => Ret 0 | VSome x => k_to t x | _ => ill_typed end)
  (fun x => if (x =? 0)%N then Ret VNone else let! y := k_from t x in Ret (VSome y)).
Example invalid_impl : forallb (fun c => check_values_of c (bad_option (code_of c TBool)) 3) hosts = false /\
  forallb (fun c => negb (check_values_of c (bad_option (code_of c TBool)) 3)) hosts = true.
Proof. split; run. Qed.
(** main.rs:355-370 generics *)
Example generics : forallb (fun c => let b := code_of c TBool in
  chk c 3 [derived c (DEnum [("Non", Unit); ("Som", Unnamed [b])])] &&
  chk c (2 * 1 * 2) [derived c (DStruct (Unnamed [b; code_of c TUnit; code_of c (Opt TUnit)]))]) hosts = true.
Proof. run. Qed.

(** ** enum_set *)
(** enum_set/src/lib.rs:292-302 *)
Example create : let E := elem (code_of u32_debug ABC) in let a := VUser 0 in
  set_contains E set_new a = false /\
  let '(r1, e1) := set_insert E a set_new in let '(r2, e2) := set_insert E a e1 in
  let '(r3, e3) := set_remove E a e2 in let '(r4, e4) := set_remove E a e3 in
  r1 = Ret true /\ r2 = Ret false /\ set_contains E e2 a = true /\ r3 = Ret true /\ r4 = Ret false /\ set_contains E e4 a = false.
Proof. vm_compute. repeat split. Qed.

(** example/src/enum_set.rs:35-121 card_deck_game *)
Definition suit := clike ["Hearts"; "Spades"; "Clubs"; "Diamonds"].
Definition rank := clike ["N2"; "N3"; "N4"; "N5"; "N6"; "N7"; "N8"; "N9"; "N10"; "J"; "Q"; "K"; "A"].
Definition card (c : cfg) : code := derived c (DStruct (Named [("number", derived c rank); ("suit", derived c suit)])).
Close Scope string_scope.
Definition ins (E : enumlike val) (s : set) (o : option val) : set := match o with Some x => snd (set_insert E x s) | None => s end.
(** deck.remove(seed % deck.len()) *)
Definition deal (seed : nat) (deck : list val) : option val * list val :=
  let i := Nat.modulo seed (length deck) in (nth_error deck i, firstn i deck ++ skipn (S i) deck).
Fixpoint game (E : enumlike val) (seed fuel : nat) (deck : list val) (s : set * set * set * set) : set * set * set * set :=
  match fuel, deck with
  | S f, _ :: _ =>
      let '(s1, s2, s3, s4) := s in
      let '(x1, deck) := deal seed deck in let '(x2, deck) := deal seed deck in
      let '(x3, deck) := deal seed deck in let '(x4, deck) := deal seed deck in
      game E seed f deck (ins E s1 x1, ins E s2 x2, ins E s3 x3, ins E s4 x4)
  | _, _ => s
  end.
Definition xor (s t : set) : set := snd (set_symmetric_difference_with t s).
Example card_deck_game : let c := u32_debug in let E := elem (card c) in
  match all_values c (card c) with
  | None => False
  | Some deck =>
      let eall := fold_left (fun s x => ins E s (Some x)) deck set_new in
      let '(e1, e2, e3, e4) := game E (N.to_nat 18917) 60 deck (set_new, set_new, set_new, set_new) in
      let '(a1, a2, a3, a4) := game E (N.to_nat (18917 + 4)) 60 deck (set_new, set_new, set_new, set_new) in
      let e := snd (set_union_with e4 (snd (set_union_with e3 (snd (set_union_with e2 e1))))) in
      let two_of_hearts := VSeq [VVariant 0 []; VVariant 0 []] in
      map set_len [eall; e1; e2; e3; e4] = [4 * 13; 13; 13; 13; 13] /\ set_eq e eall = true /\
      map (fun s => set_contains E s two_of_hearts) [e1; e2; e3; e4] = [false; false; false; true] /\
      map set_len [xor e1 a1; xor e4 a4; xor e2 a2; xor e3 a3] = [22; 20; 18; 14]
  end.
Proof. vm_compute. repeat split. Qed.
