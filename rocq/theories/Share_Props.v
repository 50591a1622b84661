(** Property C47: operations on shared values, by several threads. *)
From Verif Require Import Base Util_Model Num_Model Path_Model PathParser_Model Token_Model Value_Model Duration_Model Config_Model
  Render_Model Resolve_Model Include_Model Share_Model Share_Spec Share_Lemmas Share_Lemmas3 Share_Lemmas4.

(** C47.  Threads that share values call operations on them and on what earlier calls gave them.  Whatever the
    schedule, a thread that has ended has got, call by call, what it would have got if it had had the values
    for itself. *)
Theorem threads_as_if_alone_partial : forall files environment include_depth resolve_depth h shared vs scripts schedule h' threads,
  Forall2 (holds h) shared vs ->
  run schedule h (map (client files environment include_depth resolve_depth (map Gives shared)) scripts) = (h', threads) ->
  forall i script r, nth_error scripts i = Some script -> nth_error threads i = Some (Return r) ->
  same_end h' r (alone files environment include_depth resolve_depth (map Gives vs) script).
Proof. exact clients_alone. Qed.
Print Assumptions threads_as_if_alone_partial.

(** C47.  The contents of a value never change: what an address holds at some point of some execution it holds
    at every later point.  This is so for the values shared at the start and for all created since. *)
Theorem contents_never_change_partial : forall files environment include_depth resolve_depth h shared vs scripts s1 h1 threads1 s2 h2 threads2,
  Forall2 (holds h) shared vs ->
  run s1 h (map (client files environment include_depth resolve_depth (map Gives shared)) scripts) = (h1, threads1) ->
  run s2 h1 threads1 = (h2, threads2) ->
  forall a v, holds h1 a v -> holds h2 a v.
Proof. exact contents_stay. Qed.
Print Assumptions contents_never_change_partial.

(** An address holds one value only. *)
Theorem contents_unique : forall h a v w, holds h a v -> holds h a w -> v = w.
Proof. exact holds_unique_. Qed.
Print Assumptions contents_unique.

(** C47.  Whatever has been executed, letting the threads run one after another from there ends them all.  So
    the theorems above are about executions that exist, and no thread waits for another. *)
Theorem threads_end : forall A h (threads : list (prog A)), exists schedule h' threads',
  one_after_another 0 (List.length threads) schedule /\ run schedule h threads = (h', threads') /\ ended threads'.
Proof. exact all_end_. Qed.
Print Assumptions threads_end.

(** C47.  Any two executions give every thread the same results. *)
Theorem schedules_agree_partial : forall files environment include_depth resolve_depth h shared vs scripts s1 h1 threads1 s2 h2 threads2,
  Forall2 (holds h) shared vs ->
  run s1 h (map (client files environment include_depth resolve_depth (map Gives shared)) scripts) = (h1, threads1) ->
  run s2 h (map (client files environment include_depth resolve_depth (map Gives shared)) scripts) = (h2, threads2) ->
  forall i r1 r2, nth_error threads1 i = Some (Return r1) -> nth_error threads2 i = Some (Return r2) ->
  exists results, same_end h1 r1 results /\ same_end h2 r2 results /\
    (forall other, same_end h1 r1 other -> other = results) /\ (forall other, same_end h2 r2 other -> other = results).
Proof. exact runs_agree. Qed.
Print Assumptions schedules_agree_partial.

(** Two threads share an object [{a: {b: 1}, c: [true]}] and an object [{a: {d: 2}}].  Both merge them, one in
    one order, the other in the other, and ask for [a.b] and [c]. *)
Definition shared_heap : heap :=
  [CScalar (SInt 1 (lit "1")); CObj true false [(lit "b", 0%nat)]; CScalar (SBool true); CList true [2%nat]; CObj true false [(lit "a", 1%nat); (lit "c", 3%nat)];
   CScalar (SInt 2 (lit "2")); CObj true false [(lit "d", 5%nat)]; CObj true false [(lit "a", 6%nat)]].
Definition shared_contents : list value :=
  [VObj true false [(lit "a", VObj true false [(lit "b", VScalar (SInt 1 (lit "1")))]); (lit "c", VList [VScalar (SBool true)])];
   VObj true false [(lit "a", VObj true false [(lit "d", VScalar (SInt 2 (lit "2")))])]].
Definition two_scripts : list (list request) :=
  [[CallFallback 0 1; CallGetValue 2 (lit "a"); CallAsk 2 (QInt (lit "a.b")); CallAsk 0 (QInt (lit "a.d"))];
   [CallFallback 1 0; CallGetObject 2 (lit "a"); CallWithValue 1 (lit "e") 2; CallAsk 4 (QBools (lit "e.c"))]].
Definition turns : list nat := List.concat (repeat [0; 1; 1; 0; 1; 0; 0]%nat 40).
Definition two_threads := map (client (fun _ => None) [] 10 10 (map Gives [4; 7]%nat)) two_scripts.

Ltac cells := first [eapply holds_scalar; reflexivity
  | eapply holds_list; [reflexivity|repeat constructor|repeat (constructor; try cells)]
  | eapply holds_obj; [reflexivity|repeat constructor|reflexivity|repeat (constructor; try cells)]].
Example threads_ex : Forall2 (holds shared_heap) [4; 7]%nat shared_contents /\
  (exists h' r1 r2, run turns shared_heap two_threads = (h', [Return (Ok r1); Return (Ok r2)]) /\ r1 <> [] /\
     nth_error r1 2 = Some (Answers (AAny (UInt 1))) /\ nth_error r1 3 = Some (Threw EConfig) /\
     nth_error r2 3 = Some (Answers (AAny (UList [UBool true])))) /\
  (exists h' r1 r2, run (repeat 1%nat 200 ++ repeat 0%nat 200) shared_heap two_threads = (h', [Return (Ok r1); Return (Ok r2)]) /\
     nth_error r1 0 <> nth_error (match snd (run turns shared_heap two_threads) with Return (Ok r) :: _ => r | _ => [] end) 0) .
Proof.
  split; [repeat (constructor; try cells)|]. split.
  - eexists. eexists. eexists. split; [vm_compute; reflexivity|]. split; [discriminate|]. repeat split.
  - eexists. eexists. eexists. split; [vm_compute; reflexivity|]. vm_compute. discriminate.
Qed.

(** A thread that wrote to a shared cell would be noticed: the first thread then gets 9 for [a.b]. *)
Example write_would_show : exists h' r1, run (1%nat :: repeat 0%nat 200) shared_heap (firstn 1 two_threads ++ [Write 0%nat (CScalar (SInt 9 (lit "9"))) (Return (Ok []))]) = (h', [Return (Ok r1); Return (Ok [])]) /\
  nth_error r1 2 = Some (Answers (AAny (UInt 9))) /\ nth_error h' 1 = nth_error shared_heap 1.
Proof. eexists. eexists. split; [vm_compute; reflexivity|]. split; reflexivity. Qed.
