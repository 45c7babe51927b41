(** Model of the debug allocator: CommonC/DebugAllocator.c and CommonC/Allocator.c 232-253, for any number of threads, each step an
    access to the shared list of tracked pointers or a call of malloc, realloc or free.

    The list is the concurrent index map of IndexMapModel.v: its single operations are atomic (C45), and it only grows. It and
    the queue of free indexes exist from the start (DebugAllocator.c 54-65). Nothing ever puts an index into the queue, so that
    CCConcurrentQueuePop (line 69) always gives NULL. Pointers here are those of the allocator functions. malloc succeeds. *)
From Verif Require Import Base.
Local Open Scope N_scope.

(** Where an allocation was made: file and line *)
Definition info := (N * N)%type.
(** DebugAllocator.c 39-43: CCDebugAllocatorTrackedPtr; the pointer 0 is NULL *)
Definition entry := (N * info)%type.

(** What a search through the list (lines 80-96) is for *)
Inductive job := ToAsk | ToRemove | ToReplace (q : N) (i : info).

Inductive pc :=
| Idle
| Tracking (p : N) (i : info)            (* Allocator.c 235: malloc has given p *)
| Seeking (j : job) (p : N) (k : nat)    (* line 85: about to read index k *)
| Found (j : job) (p : N) (k : nat)      (* lines 106, 116: about to replace the entry at k *)
| Freeing (p : N).                       (* Allocator.c 251-252 *)

(** [user]: the allocations the program has, with where each was made or last resized *)
Record state := mkState { entries : list entry; heap : list N; user : list entry; threads : list pc }.
Definition initial (n : nat) : state := mkState [] [] [] (repeat Idle n).

Inductive label :=
| Malloc (p : N) (i : info)
| Append
| Free (p : N)
| Realloc (p : N) (data : option info) (got : option N)
| Ask (p : N)
| Read
| Write
| Release.

(** [Off]: the thread can not do this now; [Bad]: undefined behaviour or a failed assertion; else the new state and what
    CCDebugAllocatorIsTracking answers, if it ends *)
Inductive outcome := Off | Bad | To (s : state) (answer : option bool).

Definition mem (p : N) (l : list N) : bool := existsb (N.eqb p) l.
Definition drop (p : N) (l : list entry) : list entry := filter (fun e => negb (fst e =? p)) l.
Definition set_pc (s : state) (t : nat) (c : pc) : state := mkState (entries s) (heap s) (user s) (upd (threads s) t c).

(** The search is over: there is no such entry. *)
Definition not_found (s : state) (t : nat) (j : job) (p : N) : outcome :=
  match j with
  | ToAsk => To (set_pc s t Idle) (Some false)
  | ToRemove => To (set_pc s t (Freeing p)) None
  | ToReplace q i => To (mkState (entries s) (heap s) (user s ++ [(q, i)]) (upd (threads s) t Idle)) None
  end.

Definition step (s : state) (t : nat) (l : label) : outcome :=
  match nth_error (threads s) t, l with
  (* Allocator.c 232-238 *)
  | Some Idle, Malloc p i =>
      if (p =? 0) || mem p (heap s) then Off else To (mkState (entries s) (p :: heap s) (user s) (upd (threads s) t (Tracking p i))) None
  (* DebugAllocator.c 76 *)
  | Some (Tracking p i), Append => To (mkState (entries s ++ [(p, i)]) (heap s) (user s ++ [(p, i)]) (upd (threads s) t Idle)) None
  (* Allocator.c 249-253 *)
  | Some Idle, Free p =>
      if mem p (map fst (user s)) then To (mkState (entries s) (heap s) (drop p (user s)) (upd (threads s) t (Seeking ToRemove p 0))) None else Off
  (* Allocator.c 240-247: [data] is NULL when CCReallocate is given another type of allocator (lines 577) *)
  | Some Idle, Realloc p data got =>
      if mem p (map fst (user s)) then
        match got, data with
        | None, None => To s None
        | None, Some _ => Bad                                    (* DebugAllocator.c 101 *)
        | Some q, None => if (q =? 0) || (mem q (heap s) && negb (q =? p)) then Off else Bad  (* Allocator.c 244 *)
        | Some q, Some i =>
            if (q =? 0) || (mem q (heap s) && negb (q =? p)) then Off
            else To (mkState (entries s) (q :: remove N.eq_dec p (heap s)) (drop p (user s)) (upd (threads s) t (Seeking (ToReplace q i) p 0))) None
        end
      else Off
  (* DebugAllocator.c 119-126 *)
  | Some Idle, Ask p => if p =? 0 then Bad else To (set_pc s t (Seeking ToAsk p 0)) None
  (* Lines 85-92 *)
  | Some (Seeking j p k), Read =>
      match nth_error (entries s) k with
      | None => not_found s t j p
      | Some e =>
          if fst e =? p then match j with ToAsk => To (set_pc s t Idle) (Some true) | _ => To (set_pc s t (Found j p k)) None end
          else To (set_pc s t (Seeking j p (k + 1))) None
      end
  (* Line 116 and line 106 *)
  | Some (Found ToRemove p k), Write => To (mkState (upd (entries s) k (0, (0, 0))) (heap s) (user s) (upd (threads s) t (Freeing p))) None
  | Some (Found (ToReplace q i) p k), Write =>
      To (mkState (upd (entries s) k (q, i)) (heap s) (user s ++ [(q, i)]) (upd (threads s) t Idle)) None
  (* Allocator.c 252 *)
  | Some (Freeing p), Release => To (mkState (entries s) (remove N.eq_dec p (heap s)) (user s) (upd (threads s) t Idle)) None
  | _, _ => Off
  end.
