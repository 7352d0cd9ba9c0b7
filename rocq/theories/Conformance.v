(** Conformance.v -- the tests of /repo, transcribed and run on the model.

    These are tests, not theorems: they tie the model to the code.  The authors' unit tests and
    documentation examples are known to hold of the Rust code; here the model is run on the same
    calls and must give the results they assert, for the six storages in debug and release builds
    (gen.sh copies the tests into every vec_*/smallvec_u32 module). *)
From Coq Require Import String.
From Verif Require Import Program Storage EnumLike Derive EnumSet Config.
From Coq Require Import List.
Close Scope string_scope.
Open Scope N_scope.
Set Implicit Arguments.

Definition configs : list cfg :=
  flat_map (fun d => map (fun w => std_cfg w 64 d false (2 ^ 40)) [8; 16; 32; 64; 128] ++ [std_cfg 32 64 d true (2 ^ 40)]) [true; false].

(** An implementation of EnumLike as the vectors see it. *)
Definition elem (k : code) : enumlike val := {|
  nv := num_variants k;
  to_d := fun v => match k_to k v with Ret d => d | _ => 0 end;
  from_d := fun d => match k_from k d with Ret v => Some v | _ => None end |}.

(** A line of a test: a call whose result is not looked at, assert_eq!, another assertion on the
    vectors, an unsafe call on one of them. *)
Inductive line :=
| Run (o : op val)
| AssertEq (o : op val) (r : res val)
| Assert (f : list ev -> bool)
| Unsafe (r : nat) (m : M ev unit).
Fixpoint passes (c : cfg) (E : enumlike val) (p : list ev) (t : list line) : Prop :=
  match t with
  | [] => True
  | Run o :: t' => match m_step c E p o with
                   | (MRes RPanic, _) | (MRes RNoReg, _) => False
                   | (MRes _, p') => passes c E p' t'
                   | _ => False
                   end
  | AssertEq o r :: t' => let '(r', p') := m_step c E p o in r' = MRes r /\ passes c E p' t'
  | Assert f :: t' => if f p then passes c E p t' else False
  | Unsafe r m :: t' => match nth_error p r with
                        | Some v => match m v with (Ret _, v') => passes c E (upd p r v') t' | _ => False end
                        | None => False
                        end
  end.
(** in every storage and profile in which the element type can be used *)
Definition test (t : ty) (prog : cfg -> enumlike val -> list line) : Prop :=
  Forall (fun c => compiles c (elem (code_of c t)) = true /\ passes c (elem (code_of c t)) [] (prog c (elem (code_of c t)))) configs.
Ltac run := repeat (apply Forall_cons; [vm_compute; repeat split|]); apply Forall_nil.

Notation tr := (VBool true). Notation fl := (VBool false).
Definition bools := map VBool.
Definition at0 (p : list ev) : ev := nth 0 p (mkEv (mkRvec [] 0) 0).
Definition at1 (p : list ev) : ev := nth 1 p (mkEv (mkRvec [] 0) 0).
Definition into (l : list val) : line := Run (OFromIter (exact_iter l)).

(** ** Examples in the documentation of enum_vec/src/vec_u32/mod.rs *)
(** mod.rs:97-102 *)
Example with_capacity_doc : test TBool (fun c E => [Run (OWithCapacity 53); Assert (fun p => 53 <=? capacity c E (at0 p))]).
Proof. run. Qed.
(** mod.rs:116-127 *)
Example reserve_doc : test (TOption TUnit) (fun c E =>
  [into [VNone; VNone; VNone]; Run (OReserve 0 100); Assert (fun p => 100 + 3 <=? capacity c E (at0 p));
   Assert (fun p => 0 <? vlen (storage (at0 p)))]).
Proof. run. Qed.
Example reserve_doc2 : test TBool (fun c E => [Run ONew; Run (OReserve 0 1); AssertEq (OLen 0) (RNum 0)]).
Proof. run. Qed.
(** mod.rs:164-172 *)
Example swap_remove_doc : test TBool (fun c E =>
  [into (bools [true; true; true; false; false]); Run (OSwapRemove 0 0); AssertEq (OToVec 0) (RList (bools [false; true; true; false]));
   Run (OSwapRemove 0 1); AssertEq (OToVec 0) (RList (bools [false; false; true]))]).
Proof. run. Qed.
(** mod.rs:183-206 *)
Example insert_doc : test TBool (fun c E =>
  [Run ONew; Run (OInsert 0 0 tr); AssertEq (OToVec 0) (RList (bools [true]));
   Run (OInsert 0 0 fl); AssertEq (OToVec 0) (RList (bools [false; true]));
   Run (OInsert 0 1 tr); AssertEq (OToVec 0) (RList (bools [false; true; true]));
   Run (OInsert 0 1 fl); AssertEq (OToVec 0) (RList (bools [false; false; true; true]));
   into (repeat fl 127); AssertEq (OLen 1) (RNum 127); Run (OPush 1 tr); AssertEq (OLen 1) (RNum (127 + 1));
   Run (OPush 1 tr); AssertEq (OLen 1) (RNum (127 + 2)); Run (OInsert 1 0 tr); Run (OInsert 1 0 tr);
   AssertEq (ORead 1 0) (ROpt (Some tr)); AssertEq (ORead 1 1) (ROpt (Some tr)); AssertEq (OLen 1) (RNum (127 + 4))]).
Proof. run. Qed.
(** mod.rs:255-271; Option<[bool; 4]>: 17 values, 5 bits *)
Definition item := VSome (VSeq (bools [true; false; true; false])).
Example remove_doc : test (TOption (TArray 4 TBool)) (fun c E =>
  [into (repeat VNone 129); Run (OInsert 0 0 item); AssertEq (ORemove 0 0) (RVal item);
   Run (OInsert 0 127 item); AssertEq (ORemove 0 127) (RVal item);
   Run (OInsert 0 127 item); Run (OInsert 0 128 item);
   AssertEq (ORemove 0 127) (RVal item); AssertEq (ORemove 0 127) (RVal item);
   AssertEq (ORemove 0 127) (RVal VNone); AssertEq (ORemove 0 127) (RVal VNone); AssertEq (OLen 0) (RNum 127)]).
Proof. run. Qed.
(** mod.rs:315-323 *)
Definition pair a b := VSeq [VBool a; VBool b].
Example retain_doc : test (TTuple [TBool; TBool]) (fun c E =>
  [into [pair true true; pair false false; pair true false; pair false true];
   Run (ORetain 0 (fun _ x => match x with VSeq (VBool b :: _) => Some b | _ => None end));
   AssertEq (OToVec 0) (RList [pair true true; pair true false])]).
Proof. run. Qed.
(** mod.rs:346-351 *)
Example push_doc : test TBool (fun c E => [into (repeat fl 127); Run (OPush 0 tr)]).
Proof. run. Qed.
(** mod.rs:377-387 *)
Example append_doc : test (TOption TUnit) (fun c E =>
  [into [VNone; VNone; VSome VUnit]; Run (OClone 0); Run (OPush 1 VNone); Run (OAppend 0 1);
   AssertEq (ORead 0 6) (ROpt (Some VNone)); AssertEq (OLen 0) (RNum (3 + 4)); AssertEq (OLen 1) (RNum 0)]).
Proof. run. Qed.
(** mod.rs:414-428 *)
Example clear_doc : test (TOption TBool) (fun c E =>
  [Run ONew; Run (OPush 0 (VSome fl)); AssertEq (OLen 0) (RNum 1); Run (OClear 0); AssertEq (OLen 0) (RNum 0);
   AssertEq (OIsEmpty 0) (RBool true); Unsafe 0 (EnumVec.set_len 1); AssertEq (OPop 0) (ROpt (Some (VSome fl)))]).
Proof. run. Qed.
(** mod.rs:473-479 *)
Example extend_with_value_doc : test (TTuple [TBool; TBool]) (fun c E =>
  [Run (OFromElem (pair true false) 1000); AssertEq (OLen 0) (RNum 1000); AssertEq (OToVec 0) (RList (repeat (pair true false) 1000))]).
Proof. run. Qed.
(** mod.rs:621-637 *)
Example for_each_doc : test TBool (fun c E =>
  [into (bools [true; false; true]); Run (OForEach 0 (fun _ x => match x with VBool b => Some (VBool (negb b)) | _ => None end));
   AssertEq (OToVec 0) (RList (bools [false; true; false]))]).
Proof. run. Qed.
(** mod.rs:652-660 *)
Example to_vec_doc : test TBool (fun c E => [Run ONew; Run (OPush 0 tr); Run (OPush 0 fl); AssertEq (OToVec 0) (RList (bools [true; false]))]).
Proof. run. Qed.
(** mod.rs:676-684; extend with an EnumVec: its iterator has an exact size hint (C15) *)
Example from_slice_doc : test TBool (fun c E =>
  [Run (OFromSlice (bools [true; false; false; true])); AssertEq (OLen 0) (RNum 4); Run (OFromElem fl 8);
   Run (OExtend 1 (exact_iter (bools [true; false; false; true])))]).
Proof. run. Qed.
(** mod.rs:694-729 *)
Example storage_doc : test TBool (fun c E =>
  [into (repeat tr 100); AssertEq (OLen 0) (RNum 100); Assert (fun p => 0 <? lenN (storage_blocks (at0 p)));
   AssertEq (ORead 0 0) (ROpt (Some tr)); Assert (fun _ => to_d E fl =? 0); Unsafe 0 (storage_assign 0 0);
   AssertEq (ORead 0 0) (ROpt (Some fl))]).
Proof. run. Qed.
(** mod.rs:736-763 *)
Example any_doc : test TBool (fun c E =>
  [into (repeat tr 200); AssertEq (OAny 0 tr) (RBool true); AssertEq (OAny 0 fl) (RBool false); Run (OPush 0 tr);
   AssertEq (OAny 0 tr) (RBool true); AssertEq (OAny 0 fl) (RBool false); Run (OSet 0 0 fl); AssertEq (OAny 0 fl) (RBool true)]).
Proof. run. Qed.
Example any_doc2 : test (TOption TBool) (fun c E =>
  [into (repeat VNone 200); AssertEq (OAny 0 (VSome fl)) (RBool false); AssertEq (OAny 0 (VSome tr)) (RBool false); AssertEq (OAny 0 VNone) (RBool true);
   Run (OSet 0 1 (VSome fl)); AssertEq (OAny 0 (VSome fl)) (RBool true); AssertEq (OAny 0 (VSome tr)) (RBool false); AssertEq (OAny 0 VNone) (RBool true);
   Run (OSet 0 2 (VSome tr)); AssertEq (OAny 0 (VSome fl)) (RBool true); AssertEq (OAny 0 (VSome tr)) (RBool true); AssertEq (OAny 0 VNone) (RBool true)]).
Proof. run. Qed.
(** mod.rs:820-844 *)
Example all_doc : test TBool (fun c E =>
  [into (repeat tr 200); AssertEq (OAll 0 tr) (RBool true); AssertEq (OAll 0 fl) (RBool false); Run (OPush 0 tr);
   AssertEq (OAll 0 tr) (RBool true); AssertEq (OAll 0 fl) (RBool false); Run (OSet 0 0 fl);
   AssertEq (OAll 0 tr) (RBool false); AssertEq (OAll 0 fl) (RBool false)]).
Proof. run. Qed.
Example all_doc2 : test (TOption TBool) (fun c E =>
  [into (repeat VNone 200); AssertEq (OAll 0 (VSome fl)) (RBool false); AssertEq (OAll 0 (VSome tr)) (RBool false); AssertEq (OAll 0 VNone) (RBool true);
   Run (OSet 0 1 (VSome fl)); AssertEq (OAll 0 (VSome fl)) (RBool false); AssertEq (OAll 0 (VSome tr)) (RBool false); AssertEq (OAll 0 VNone) (RBool false)]).
Proof. run. Qed.

(** ** Unit tests, mod.rs:1138-1519 *)
(** mod.rs:1142-1169: enum ABC with a hand-written implementation *)
Definition ABC := TUser 3 [].
Notation A := (VUser 0). Notation B := (VUser 1). Notation C := (VUser 2).
(** mod.rs:1171-1185 *)
Example abc_push_pop : test ABC (fun c E =>
  [Run ONew; Run (OPush 0 A); Run (OPush 0 B); Run (OPush 0 C); Run (OPush 0 A);
   AssertEq (OPop 0) (ROpt (Some A)); AssertEq (OPop 0) (ROpt (Some C)); AssertEq (OPop 0) (ROpt (Some B)); AssertEq (OPop 0) (ROpt (Some A));
   AssertEq (OPop 0) (ROpt None)]).
Proof. run. Qed.
(** mod.rs:1187-1203 *)
Example option_abc : test (TOption ABC) (fun c E =>
  [Run ONew; Run (OPush 0 VNone); Run (OPush 0 (VSome A)); Run (OPush 0 (VSome B)); Run (OPush 0 (VSome C)); Run (OPush 0 (VSome A));
   AssertEq (OPop 0) (ROpt (Some (VSome A))); AssertEq (OPop 0) (ROpt (Some (VSome C))); AssertEq (OPop 0) (ROpt (Some (VSome B)));
   AssertEq (OPop 0) (ROpt (Some (VSome A))); AssertEq (OPop 0) (ROpt (Some VNone)); AssertEq (OPop 0) (ROpt None)]).
Proof. run. Qed.
(** mod.rs:1205-1224 *)
Example get_set : test ABC (fun c E =>
  Run ONew :: repeat (Run (OPush 0 A)) 10 ++ [Run (OSet 0 3 C); Run (OSet 0 5 B)] ++
  map (fun i => AssertEq (ORead 0 (N.of_nat i)) (ROpt (Some (match i with 3%nat => C | 5%nat => B | _ => A end)))) (seq 0 10)).
Proof. run. Qed.
(** mod.rs:1226-1291 *)
Definition reads (a b : nat) (x : val) : list line := map (fun i => AssertEq (ORead 0 (N.of_nat i)) (ROpt (Some x))) (seq a (b - a)).
Example insert_remove : test ABC (fun c E =>
  Run ONew :: repeat (Run (OPush 0 B)) 10 ++ repeat (Run (OInsert 0 0 C)) 5 ++ repeat (Run (OInsert 0 10 A)) 5 ++
  reads 0 5 C ++ reads 5 10 B ++ reads 10 15 A ++ reads 15 20 B ++
  repeat (Run (ORemove 0 0)) 5 ++ repeat (Run (OInsert 0 0 C)) 5 ++ repeat (Run (ORemove 0 15)) 5 ++ repeat (Run (OInsert 0 15 B)) 5 ++
  reads 0 5 C ++ reads 5 10 B ++ reads 10 15 A ++ reads 15 20 B).
Proof. run. Qed.
(** mod.rs:1293-1307: Digit: to_discr and from_discr do not check, 1309-1346 *)
Definition digit_code : code := mkCode (Some 10) (fun v => match v with VUser x => Ret x | _ => ill_typed end) (fun x => Ret (VUser (x mod 256))).
Definition test_digit (prog : list line) : Prop := Forall (fun c => passes c (elem digit_code) [] prog) configs.
Example digit_test : test_digit
  (Run ONew :: map (fun x => Run (OPush 0 (VUser x))) [3; 4; 5; 6; 3; 4; 5; 6; 3] ++
   map (fun x => AssertEq (OPop 0) (ROpt (Some (VUser x)))) [3; 6; 5; 4; 3; 6; 5; 4; 3] ++ [AssertEq (OPop 0) (ROpt None)]).
Proof. run. Qed.
Example digit_uses_4_bits : test_digit [Run ONew; Run (OPush 0 (VUser 59)); AssertEq (OPop 0) (ROpt (Some (VUser 11)))]. (* 0x3B, 0x0B *)
Proof. run. Qed.
(** mod.rs:1348-1392: TwoDigits numbers tens * 10 + ones *)
Definition two_digits_code : code := mkCode (Some 100)
  (fun v => match v with VSeq [VUser t; VUser o] => Ret (t * 10 + o) | _ => ill_typed end)
  (fun x => Ret (VSeq [VUser ((x / 10) mod 256); VUser ((x mod 10) mod 256)])).
Definition two i j := VSeq [VUser i; VUser j].
Definition upto (n : nat) : list N := map N.of_nat (seq 0 n).
Example two_digit_test : Forall (fun c => passes c (elem two_digits_code) []
  (Run ONew :: map (fun i => Run (OPush 0 (two i (9 - i)))) (upto 10) ++
   map (fun i => AssertEq (ORead 0 i) (ROpt (Some (two i (9 - i))))) (upto 10) ++
   flat_map (fun i => let d := two ((i + 3) mod 10) (((9 - i) * 2 + 1) mod 10) in [Run (OSet 0 i d); AssertEq (ORead 0 i) (ROpt (Some d))]) (upto 10))) configs.
Proof. run. Qed.
(** mod.rs:1394-1402, 1412-1423 *)
Example from_vec : test ABC (fun c E => Run ONew :: Run (OExtend 0 (exact_iter [C; A; A; B; C])) ::
  map (fun i => AssertEq (ORead 0 i) (ROpt (nthN [C; A; A; B; C] i))) (upto 5)).
Proof. run. Qed.
Example macro_enum_vec : test ABC (fun c E =>
  [Run (OFromSlice [C; A; A; B; C]); AssertEq (OToVec 0) (RList [C; A; A; B; C]); Run (OFromElem C 10); AssertEq (OToVec 1) (RList (repeat C 10))]).
Proof. run. Qed.
(** mod.rs:1404-1410: EnumVec<()> does not compile *)
Example zero_sized : Forall (fun c => compiles c (elem (code_of c TUnit)) = false) configs.
Proof. run. Qed.
(** mod.rs:1425-1434 *)
Example clone_push_segfault : test TBool (fun c E => [into [fl]; Run (OClone 0); Run (OPush 1 tr)]).
Proof. run. Qed.
(** mod.rs:1436-1454 *)
Example reserve_modifies_storage : test TBool (fun c E =>
  [Run ONew; Run (OReserve 0 1); AssertEq (OLen 0) (RNum 0); Assert (fun p => 0 <? lenN (storage_blocks (at0 p))); Run (OPush 0 tr); AssertEq (OLen 0) (RNum 1);
   Run ONew; Run (OReserve 1 1); Unsafe 1 (set_raw_unchecked c E 0 0); Unsafe 1 (EnumVec.set_len 1); AssertEq (OLen 1) (RNum 1); AssertEq (OPop 1) (ROpt (Some fl))]).
Proof. run. Qed.
(** mod.rs:1456-1466; s.resize(1, 0) on an empty storage appends one block *)
Example storage_resize : test TBool (fun c E =>
  [Run ONew; Assert (fun p => lenN (storage_blocks (at0 p)) =? 0); Unsafe 0 (storage_extend c [0]); Assert (fun p => lenN (storage_blocks (at0 p)) =? 1); Run (OPush 0 fl)]).
Proof. run. Qed.
(** mod.rs:1468-1499: the constants of any and all, for every width; !0 / num_variants_p2 >> wasted_bits *)
Definition sums (n : nat) (f : N -> N) : N := fold_right N.add 0 (map f (upto n)).
Definition ret_is (o : outcome N) (n : N) : bool := match o with Ret m => m =? n | _ => false end.
Example any_magic_constants : forallb (fun c => forallb (fun b =>
  let n := N.to_nat (W c / b) in let p2 := N.ones b in
  let one := sums n (fun i => 2 ^ (i * b)) in let high := sums n (fun i => 2 ^ ((i + 1) * b - 1)) in
  let hz := haszero c one high in
  ret_is (shr c (bones c / p2) (W c mod b)) one && ret_is (shl c one (b - 1)) high &&
  negb (hz one) && negb (hz high) && hz 0 && hz (one - 1) &&
  hz (cast_block c (high * 2)) && negb (hz (bwrapping_sub c (cast_block c (high * 2)) one)))
  (map N.succ (upto (N.to_nat (W c))))) configs = true.
Proof. vm_compute. reflexivity. Qed.
(** mod.rs:1501-1518 *)
Definition says (o : outcome bool) (b : bool) : bool := match o with Ret x => Bool.eqb x b | _ => false end.
Definition none_checks (c : cfg) (E : enumlike val) : list line := [Run (OPush 0 VNone); Assert (fun p => let v := at0 p in
  says (any c E (VSome tr) v) false && says (all c E (VSome tr) v) false && says (any c E (VSome fl) v) false &&
  says (all c E (VSome fl) v) false && says (any c E VNone v) true && says (all c E VNone v) true)].
(** all 1000 rounds for the default EnumVec in a debug build, 40 for the others (it takes long) *)
Definition false_positive (n : nat) (c : cfg) (E : enumlike val) : list line := Run ONew :: flat_map (fun _ => none_checks c E) (seq 0 n) ++
  [into (repeat VNone 1000); AssertEq (OAny 1 (VSome fl)) (RBool false); AssertEq (OAny 1 (VSome tr)) (RBool false)].
Example false_positive_any_all : Forall (fun c => passes c (elem (code_of c (TOption TBool))) [] (false_positive 1000 c (elem (code_of c (TOption TBool))))) [u32_debug].
Proof. run. Qed.
Example false_positive_any_all_others : test (TOption TBool) (false_positive 40).
Proof. run. Qed.
