(** PropSetClient.v -- C48: any history of calls on any number of EnumSets gives the answers of
    mathematical sets. *)
From Verif Require Import ProgFacts SetClientFacts.
Open Scope N_scope.

(** A client picks each call from all the answers so far; [tells] (SetClient.v) says, for sets as
    predicates on T, which answer each call has, and [after] what the sets are then. *)
Theorem C48_sets : forall T (E : enumlike T), lawful E -> forall k, own_bits (to_d E) k ->
  forall n, sees (to_d E) k n [] [] (set_play E n k [] []).
Proof. intros T E HE k Hk n. exact (play_ok HE n Hk [] (Forall2_nil _)). Qed.

(** A client that inserts values until insert says false, then compares two sets. *)
Definition collector : set_client (Fin 5) := fun seen =>
  match seen with
  | [] => Some (Do SNew)
  | _ => match last seen ANoSuch with
         | AUnit => match length seen with
                    | 1%nat => Some (Do (SInsert 0 (f5 3)))
                    | 4%nat => Some (Do (SDifferenceWith 0 1))
                    | _ => Some (Take (WUnion 0 1) 5)
                    end
         | ABool true => Some (Do (SInsert 0 (f5 (if Nat.eqb (length seen) 2 then 1 else 3))))
         | ABool false => match length seen with 4%nat => Some (Do (SFromIter (map f5 [4; 1; 4]) false)) | _ => Some (Len 0) end
         | _ => None
         end
  end.
Example C48_example : lawful (fin 5) /\ own_bits (to_d (fin 5)) collector /\
  set_play (fin 5) 20 collector [] [] =
    [AUnit; ABool true; ABool true; ABool false; AUnit; AItems [Some (f5 1); Some (f5 3); Some (f5 4); None; None]].
Proof.
  split; [apply fin_lawful|]. split; [|vm_compute; reflexivity].
  intros seen b H. exfalso. unfold collector in H. destruct seen as [|a seen]; [discriminate|].
  destruct (last (a :: seen) ANoSuch) as [|[|]| | | | | |]; try discriminate.
  - destruct (length (a :: seen)) as [|[|[|[|[|n]]]]]; discriminate.
  - destruct (length (a :: seen)) as [|[|[|[|[|n]]]]]; discriminate.
Qed.

(** One that compares, hashes and reads out the sets {1, 3} and {1, 4}. *)
Definition comparer : set_client (Fin 5) := fun seen =>
  nth_error [Do (SFromIter (map f5 [3; 1]) false); Do (SFromIter (map f5 [1; 4]) false);
             Compare 0 1; Compare 1 0; Compare 0 0; Bits 1; HashOf 0] (length seen).
Example C48_example_order :
  set_play (fin 5) 20 comparer [] [] =
    [AUnit; AUnit; AOrder Lt; AOrder Gt; AOrder Eq; ANums [1; 4]; ANums [1; 3]].
Proof. vm_compute. reflexivity. Qed.
