(** PropUnsafe.v -- C53: the unsafe accessors, mixed with safe calls. *)
From Verif Require Import UnsafeFacts PropClient.
Open Scope N_scope.

(** ** C53 *)
(** A client that mixes safe calls with get_raw_unchecked, set_raw_unchecked, set_len and
    storage_mut, and keeps the contract of Unsafe.v, sees what it would see with lists of numbers and
    Vec's behaviour on the elements, until memory runs out.  It may leave a vector half written
    as long as it makes no safe call on it.  The safe calls are those that agree with Vec in every
    state ([plain_op]; the others are the business of C04, C05, C09, C10, C14). *)
Theorem C53_client : forall T (c : cfg) (E : enumlike T), setting c E -> roomy c ->
  forall p sp, Forall2 (holds c E) p sp -> forall k n, obeys c E n k [] (map (fresh E ONew) sp) ->
  agrees (m_uplay c E n k [] p) (u_play c E n k [] (map (fresh E ONew) sp)).
Proof. intros T c E Hs Hr p sp H k n Ho. exact (uclient_sim Hs Hr (start_tracks Hs H) Ho). Qed.
(** Memory safety needs less: indices and lengths within P * storage().len(), and numbers that
    fit an element, whether or not they are numbers of a value, for any EnumLike implementation at all. *)
Theorem C53_memory_safety : forall T (c : cfg) (E : enumlike T), cfg_ok c -> roomy c -> compiles c E = true ->
  forall k n, u_careful c E n k [] [] -> ~ In MUB (m_uplay c E n k [] []).
Proof. intros T c E H1 H2 H3 k n Hk. exact (careful_safe H1 H2 H3 (Forall_nil _) Hk). Qed.
(** reserve(n), set_len, then set_raw_unchecked for each new element is extend. *)
Theorem C53_bulk_write : forall T (c : cfg) (E : enumlike T), setting c E -> roomy c ->
  forall v l xs, holds c E v l -> reservable c E (lenN l) (lenN xs) ->
  result ((reserve c E (lenN xs) ;;; set_len (lenN l + lenN xs) ;;; write_all c E (lenN l) xs) v)
    (fun _ v' => holds c E v' (l ++ xs))
    (fun k v' => no_room k /\ v' = v).
Proof. intros T c E Hs Hr v l xs H Hx. exact (bulk_write Hs Hr H Hx). Qed.

(** Two vectors; the first is enlarged by set_len and left half written while the second is used, then
    completed; a block of the second is replaced through storage_mut; the last call depends on a number read. *)
Definition tinker : uclient (Fin 4) := fun seen =>
  match nth_error seen 11 with
  | Some (RNum d) => match length seen with 12%nat => Some (Safe (OPush 0 (f4 d))) | 13%nat => Some (Safe (OToVec 0)) | _ => None end
  | _ =>
    nth_error [Safe (OFromSlice [f4 3; f4 1]); Safe (OFromSlice [f4 0]); Safe (OReserve 0 3); SetLen 0 5;
               Safe (OPush 1 (f4 2)); RawSet 0 4 2; RawSet 0 2 1; RawSet 0 3 3; Safe (OToVec 0);
               StorageSet 1 0 27; Safe (OToVec 1); RawGet 0 4] (length seen)
  end.
Example C53_example : setting u32_debug (fin 4) /\ roomy u32_debug /\ obeys u32_debug (fin 4) 20 tinker [] [] /\
  u_careful u32_debug (fin 4) 20 tinker [] [] /\
  m_uplay u32_debug (fin 4) 20 tinker [] [] =
    [MRes RUnit; MRes RUnit; MRes RUnit; MRes RUnit; MRes RUnit; MRes RUnit; MRes RUnit; MRes RUnit;
     MRes (RList [f4 3; f4 1; f4 1; f4 3; f4 2]); MRes RUnit; MRes (RList [f4 3; f4 2]); MRes (RNum 2); MRes RUnit;
     MRes (RList [f4 3; f4 1; f4 1; f4 3; f4 2; f4 2])].
Proof.
  split; [apply fin_setting; [apply u32_debug_ok|reflexivity|discriminate]|].
  split; [vm_compute; reflexivity|].
  split; [vm_compute; repeat split|]. split; [vm_compute; repeat split|]. vm_compute. reflexivity.
Qed.
(** The conditions are needed: a number that does not fit an element spills into the next one, and
    a length beyond the blocks of storage() is undefined behaviour. *)
Example C53_needed :
  m_uplay u32_debug (fin 4) 9 (fun seen => nth_error [Safe (OFromSlice [f4 0; f4 0; f4 0]); RawSet 0 1 5; Safe (OToVec 0)] (length seen)) [] [] =
    [MRes RUnit; MRes RUnit; MRes (RList [f4 0; f4 1; f4 1])] /\
  m_uplay u32_debug (fin 4) 9 (fun seen => nth_error [Safe (OFromSlice [f4 0; f4 0; f4 0]); SetLen 0 17; Safe (OToVec 0)] (length seen)) [] [] =
    [MRes RUnit; MRes RUnit; MUB].
Proof. split; vm_compute; reflexivity. Qed.
