(** * JsRing: the shared ring buffer between a web page and the audio thread.

    /repo/js/npm/ringbuf.js.  One producer (the page, index.js:163-193) and one consumer (the
    audio worklet, glicol-engine.js:120-140) run concurrently; every access to the shared
    memory is one step and steps interleave arbitrarily.

    Simplifications: memory is sequentially consistent also for the plain element accesses
    (JavaScript orders them by the [Atomics] operations around them); pointers are unbounded
    naturals (the code keeps them below the capacity in a Uint32Array); one storage cell holds
    one element. *)
From stdpp Require Export list.
From Coq Require Export Lia.

Section ring.
  Context {A : Type}.

  (** ringbuf.js:80-85: capacity counts the empty slot; read and write pointers; storage. *)
  Record shared := Shared { sh_wp : nat; sh_rp : nat; sh_store : list A }.

  (** ringbuf.js:164-178. *)
  Definition available_read (cap rd wr : nat) : nat := if Nat.ltb rd wr then wr - rd else wr + cap - rd.
  Definition available_write (cap rd wr : nat) : nat := if Nat.leb rd wr then rd + cap - wr - 1 else rd - wr - 1.
  (** ringbuf.js:95, 134-139. *)
  Definition ring_full (cap rd wr : nat) : bool := Nat.eqb ((wr + 1) mod cap) rd.
  Definition full_method (cap rd wr : nat) : bool := negb (Nat.eqb ((wr + 1) mod cap) rd).

  (** Where the producer is: in the two loads of [available_write] of index.js:168 ([PAsk]),
      in those of [push] ([PLoad], lines 93-94), or copying element [i] of [n]
      (lines 102-103, 183-187); after the last element the pointer is stored (105-109). *)
  Inductive producer :=
  | PIdle | PAsk1 (xs : list A) | PAsk2 (xs : list A) (rd : nat)
  | PLoad1 (xs : list A) | PLoad2 (xs : list A) (rd : nat) | PCopy (xs : list A) (wr n i : nat).
  (** Where the consumer is: in the loads of [empty] (lines 127-131) called by [dequeue]
      (39-44), in those of [pop] (114-115), or copying element [i] into its array [es];
      [n] is the number of elements it will report. *)
  Inductive consumer :=
  | CIdle | CAsk1 (es : list A) | CAsk2 (es : list A) (rd : nat)
  | CLoad1 (es : list A) | CLoad2 (es : list A) (rd : nat) | CCopy (es : list A) (rd n i : nat).

  (** What is observed: calls begin and return.  A push returns how many elements it took, a
      pop its array and how many elements it reports. *)
  Inductive label :=
  | PushCall (xs : list A) | PushRet (xs : list A) (n : nat)
  | PopCall (es : list A) | PopRet (es : list A) (n : nat).

  Record state := State { st_sh : shared; st_p : producer; st_c : consumer }.

  (** The storage index written or read for element [i] when the first part has [first]
      elements and begins at [at_] (lines 102-103, 120-121). *)
  Definition cell (at_ first i : nat) : nat := if Nat.ltb i first then at_ + i else i - first.
  (** Line 100 and 118: the first part; line 118 uses the length of the array. *)
  Definition push_first (cap wr n : nat) : nat := min (cap - wr) n.
  Definition pop_first (cap rd : nat) (es : list A) : nat := min (cap - rd) (length es).
  (** The number of elements copied by pop: both loops (a negative second part copies nothing). *)
  Definition pop_copies (cap rd n : nat) (es : list A) : nat := pop_first cap rd es + (n - pop_first cap rd es).

  Inductive pstep (cap : nat) : shared * producer -> option label -> shared * producer -> Prop :=
  (* TextParameterWriter.enqueue, 18-20, and Engine.run / sendMsg, index.js:168, 184 *)
  | ps_push s xs : pstep cap (s, PIdle) (Some (PushCall xs)) (s, PLoad1 xs)
  | ps_run s xs : pstep cap (s, PIdle) (Some (PushCall xs)) (s, PAsk1 xs)
  | ps_ask1 s xs : pstep cap (s, PAsk1 xs) None (s, PAsk2 xs (sh_rp s))
  | ps_ask2_no s xs rd : available_write cap rd (sh_wp s) = 0 -> pstep cap (s, PAsk2 xs rd) (Some (PushRet xs 0)) (s, PIdle)
  | ps_ask2 s xs rd : available_write cap rd (sh_wp s) <> 0 -> pstep cap (s, PAsk2 xs rd) None (s, PLoad1 xs)
  | ps_load1 s xs : pstep cap (s, PLoad1 xs) None (s, PLoad2 xs (sh_rp s))
  | ps_load2_full s xs rd : ring_full cap rd (sh_wp s) = true ->
      pstep cap (s, PLoad2 xs rd) (Some (PushRet xs 0)) (s, PIdle)
  | ps_load2 s xs rd : ring_full cap rd (sh_wp s) = false ->
      pstep cap (s, PLoad2 xs rd) None (s, PCopy xs (sh_wp s) (min (available_write cap rd (sh_wp s)) (length xs)) 0)
  | ps_copy s xs wr n i x : i < n -> xs !! i = Some x ->
      pstep cap (s, PCopy xs wr n i) None
        (Shared (sh_wp s) (sh_rp s) (<[cell wr (push_first cap wr n) i := x]> (sh_store s)), PCopy xs wr n (S i))
  | ps_store s xs wr n : pstep cap (s, PCopy xs wr n n) (Some (PushRet xs n))
      (Shared ((wr + n) mod cap) (sh_rp s) (sh_store s), PIdle).

  Inductive cstep (cap : nat) : shared * consumer -> option label -> shared * consumer -> Prop :=
  | cs_pop s es : cstep cap (s, CIdle) (Some (PopCall es)) (s, CLoad1 es)
  | cs_dequeue s es : cstep cap (s, CIdle) (Some (PopCall es)) (s, CAsk1 es)
  | cs_ask1 s es : cstep cap (s, CAsk1 es) None (s, CAsk2 es (sh_rp s))
  | cs_ask2_no s es rd : sh_wp s = rd -> cstep cap (s, CAsk2 es rd) (Some (PopRet es 0)) (s, CIdle)
  | cs_ask2 s es rd : sh_wp s <> rd -> cstep cap (s, CAsk2 es rd) None (s, CLoad1 es)
  | cs_load1 s es : cstep cap (s, CLoad1 es) None (s, CLoad2 es (sh_rp s))
  | cs_load2_empty s es rd : sh_wp s = rd -> cstep cap (s, CLoad2 es rd) (Some (PopRet es 0)) (s, CIdle)
  | cs_load2 s es rd : sh_wp s <> rd ->
      cstep cap (s, CLoad2 es rd) None (s, CCopy es rd (min (available_read cap rd (sh_wp s)) (length es)) 0)
  | cs_copy s es rd n i x : i < pop_copies cap rd n es -> sh_store s !! cell rd (pop_first cap rd es) i = Some x ->
      cstep cap (s, CCopy es rd n i) None (s, CCopy (<[i := x]> es) rd n (S i))
  | cs_store s es rd n : cstep cap (s, CCopy es rd n (pop_copies cap rd n es)) (Some (PopRet es n))
      (Shared (sh_wp s) ((rd + n) mod cap) (sh_store s), CIdle).

  Inductive step (cap : nat) : state -> option label -> state -> Prop :=
  | s_p s p c l s' p' : pstep cap (s, p) l (s', p') -> step cap (State s p c) l (State s' p' c)
  | s_c s p c l s' c' : cstep cap (s, c) l (s', c') -> step cap (State s p c) l (State s' p c').

  Definition seen_ (l : option label) : list label := match l with Some x => [x] | None => [] end.
  Inductive run (cap : nat) : state -> list label -> state -> Prop :=
  | r_nil s : run cap s [] s
  | r_step s tr s1 l s2 : run cap s tr s1 -> step cap s1 l s2 -> run cap s (tr ++ seen_ l) s2.

  (** getStorageForCapacity (63-69): a fresh buffer is zeroed ([z]) and has one cell more than
      asked for. *)
  Definition fresh_ring (z : A) (capacity : nat) : state :=
    State (Shared 0 0 (replicate (capacity + 1) z)) PIdle CIdle.
End ring.
Arguments shared : clear implicits.
Arguments state : clear implicits.
Arguments label : clear implicits.
Arguments producer : clear implicits.
Arguments consumer : clear implicits.
