(** * Graph: petgraph's [StableDiGraph], [DfsPostOrder], and glicol's [Processor].

    petgraph 0.6 is the dependency named in /repo/rs/Cargo.toml:13; its code is not
    in /repo, so the definitions below transcribe its documented behaviour:
    - removed node indices are reused last-removed-first ([free]);
    - the incoming-neighbour iterator lists edges newest first, with one item per
      parallel edge and with self loops;
    - [add_edge] panics when an end point is not a live node. *)
From Verif Require Export Base.

(** /repo/rs/synth/src/context.rs:89 [GlicolGraph = StableGraph<GlicolNodeData, ()>].
    [slots !! i = Some (Some w)]: node [i] is live with weight [w].
    Simplification: edge indices are not represented (never used by glicol). *)
Record sgraph (W : Type) := SGraph {
  slots : list (option W);
  free : list nat;
  edges : list (nat * nat)
}.
Arguments SGraph {W} _ _ _.
Arguments slots {W} _.
Arguments free {W} _.
Arguments edges {W} _.

Section sgraph.
  Context {W : Type}.
  Implicit Types g : sgraph W.

  Definition g_empty : sgraph W := SGraph [] [] [].

  (** [StableGraph::node_weight]. *)
  Definition node_weight g (n : nat) : option W := slots g !! n ≫= id.

  (** Live node indices (spec-level helper). *)
  Definition live g (n : nat) : Prop := is_Some (node_weight g n).

  (** [StableGraph::add_node]: reuse the most recently freed index, else append. *)
  Definition add_node g (w : W) : sgraph W * nat :=
    match free g with
    | i :: fr => (SGraph (<[i := Some w]> (slots g)) fr (edges g), i)
    | [] => (SGraph (slots g ++ [Some w]) [] (edges g), length (slots g))
    end.

  (** [StableGraph::remove_node]: no-op on an absent index. *)
  Definition remove_node g (n : nat) : sgraph W :=
    match node_weight g n with
    | Some _ =>
        SGraph (<[n := None]> (slots g)) (n :: free g)
               (filter (fun e => e.1 ≠ n ∧ e.2 ≠ n) (edges g))
    | None => g
    end.

  (** [StableGraph::add_edge]: panics if an end point is not live. *)
  Definition add_edge g (a b : nat) : res (sgraph W) :=
    match node_weight g a, node_weight g b with
    | Some _, Some _ => Ok (SGraph (slots g) (free g) ((a, b) :: edges g))
    | _, _ => Panic
    end.

  (** [StableGraph::clear_edges]. *)
  Definition clear_edges g : sgraph W := SGraph (slots g) (free g) [].

  (** [graph[n] = w] through [IndexMut]: panics on an absent node. *)
  Definition set_weight g (n : nat) (w : W) : res (sgraph W) :=
    match node_weight g n with
    | Some _ => Ok (SGraph (<[n := Some w]> (slots g)) (free g) (edges g))
    | None => Panic
    end.

  (** [neighbors_directed(n, Incoming)]. *)
  Definition in_neighbors g (n : nat) : list nat :=
    (filter (fun e => e.2 = n) (edges g)).*1.

  (** [petgraph::visit::DfsPostOrder] over [Reversed(graph)], as driven by
      /repo/rs/synth/src/graph.rs:143-145.  [stack] has its top first; [fin] lists
      the finished nodes, most recently finished first.  One call of [dfs_step] is
      one iteration of the [while let Some(&nx) = self.stack.last()] loop. *)
  Record dfs := Dfs { d_stack : list nat; d_disc : list nat; d_fin : list nat }.

  Definition dfs_step g (s : dfs) : option dfs :=
    match d_stack s with
    | [] => None
    | nx :: st =>
        Some (if decide (nx ∈ d_disc s)
              then Dfs st (d_disc s)
                       (if decide (nx ∈ d_fin s) then d_fin s else nx :: d_fin s)
              else let disc := nx :: d_disc s in
                   Dfs (rev (filter (fun u => u ∉ disc) (in_neighbors g nx)) ++ nx :: st)
                       disc (d_fin s))
    end.

  (** [None] would mean that the fuel ran out; [GraphProofs.dfs_order_total] shows
      it never does. *)
  Fixpoint dfs_run g (fuel : nat) (s : dfs) : option (list nat) :=
    match fuel with
    | 0 => None
    | S k => match dfs_step g s with
             | None => Some (rev (d_fin s))
             | Some s' => dfs_run g k s'
             end
    end.

  (** Nodes in the order in which [DfsPostOrder::next] returns them. *)
  Definition dfs_order g (dest : nat) : option (list nat) :=
    dfs_run g (2 * length (edges g) + 3) (Dfs [dest] [] []).
End sgraph.

(** The processor, /repo/rs/synth/src/graph.rs:133-166, for an arbitrary node type.
    A node weight is a node state with its output buffers
    (/repo/rs/synth/src/graph.rs:51-54 [NodeData]). *)
Section processor.
  Context {node buf : Type}.
  (** [Node::process(&mut self, inputs, output)]: inputs are (node id, buffers)
      pairs with distinct ids (a [HashMap<usize, Input>]) in iteration order. *)
  Context (nproc : node -> list (nat * list buf) -> list buf -> res (node * list buf)).
  Notation W := (node * list buf)%type.
  Implicit Types g : sgraph W.

  (** graph.rs:146-157: collect the distinct in-neighbours other than the node itself. *)
  Definition input_ids g (n : nat) : list nat :=
    remove_dups (filter (fun u => u ≠ n) (in_neighbors g n)).

  Definition inputs_of g (n : nat) : res (list (nat * list buf)) :=
    mapR (fun u => match node_weight g u with
                   | Some w => Ok (u, w.2)
                   | None => Panic
                   end) (input_ids g n).

  (** graph.rs:146-164, one iteration of the loop; [sh] is the iteration order of
      the [inputs] map seen by this node. *)
  Definition process_node (sh : shuffle) g (n : nat) : res (sgraph W) :=
    ins ← inputs_of g n;
    w ← unwrap (node_weight g n);
    w' ← nproc w.1 (sh _ ins) w.2;
    set_weight g n w'.

  (** graph.rs:133-166.  Simplification: the traversal order is computed before the
      nodes are processed; processing never changes edges
      ([GraphProofs.process_node_edges]), so interleaving the two is equivalent. *)
  Definition process (shs : nat -> shuffle) g (dest : nat) : res (sgraph W) :=
    match dfs_order g dest with
    | Some order => foldM (fun g n => process_node (shs n) g n) g order
    | None => Panic
    end.
End processor.
