(** * Engine: glicol's live-coding engine.

    /repo/rs/main/src/lib.rs, generic in the language it runs: the record [lang]
    packages what the engine needs from the parser, from [makenode] and from the
    audio nodes.  [Instance.v] gives the concrete one; the engine theorems hold for
    every [lang]. *)
From Verif Require Export Text Graph.
Local Open Scope nat_scope.

(** /repo/rs/synth/src/lib.rs:63-85, restricted to the messages the engine sends
    (SetToNumber/SetToSymbol lib.rs:92-99, SetBPM lib.rs:590, Index context.rs:182,
    IndexOrder context.rs:190, ResetOrder lib.rs:517). *)
Inductive msg :=
| SetToNumber (pos : Z) (v : f32)
| SetToSymbol (pos : Z) (s : string)
| SetBPM (bpm : f32)
| Index (i : nat)
| IndexOrder (pos i : nat)
| ResetOrder.

(** /repo/rs/main/src/error.rs:6-10; the pest diagnostics are not represented. *)
Inductive engine_error :=
| ParsingError
| NonExistReference (name : string)
| NonExistSample (name : string).

(** A Rust function returning [Result]: value, error, or panic. *)
Inductive outcome (A : Type) : Type :=
| Done (a : A)
| Fail (e : engine_error)
| Crash.
Arguments Done {A} _.
Arguments Fail {A} _.
Arguments Crash {A}.

Record env (sample : Type) := Env {
  e_samples : gmap string sample;
  e_sr : Z;
  e_bpm : f32;
  e_seed : Z
}.
Arguments Env {sample} _ _ _ _.
Arguments e_samples {sample} _.
Arguments e_sr {sample} _.
Arguments e_bpm {sample} _.
Arguments e_seed {sample} _.

Record lang := Lang {
  comp : Type;                       (* parser/src/nodes.rs:54 Component *)
  node : Type;                       (* BoxedNodeSend *)
  buf : Type;                        (* Buffer<N> *)
  slice : Type;                      (* &[f32] *)
  sample : Type;                     (* (&'static [f32], usize, usize) *)
  text : Type;                       (* source text *)
  comp_eqb : comp -> comp -> bool;   (* derived PartialEq *)
  all_refs : comp -> list string;    (* nodes.rs:100 all_references *)
  makenode : env sample -> comp -> outcome ((node * list buf) * list string); (* main/src/util.rs:35 *)
  nmsg : node -> msg -> res node;    (* Node::send_msg *)
  nproc : node -> list (nat * list buf) -> list buf -> res (node * list buf); (* Node::process *)
  parse : text -> outcome (gmap string (list comp));  (* parser/src/lib.rs:16 get_ast *)
  dest_w : node * list buf;          (* Sum2 with [channels] silent buffers, context.rs:105 *)
  pass_w : node * list buf;          (* Pass with silent buffers, context.rs:109, lib.rs:60 *)
  copy_slice : buf -> slice -> res buf  (* copy_from_slice: panics on a length mismatch *)
}.
Arguments comp_eqb {_} _ _.
Arguments all_refs {_} _.
Arguments makenode {_} _ _.
Arguments nmsg {_} _ _.
Arguments nproc {_} _ _ _.
Arguments parse {_} _.
Arguments copy_slice {_} _ _.

Section engine.
  Context (L : lang).
  Notation W := (node L * list (buf L))%type.
  Notation ast := (gmap string (list (comp L))).
  Notation graph := (sgraph W).
  Notation table := (gmap string (list nat)).

  (** lib.rs:34-48.  [need_update], [livecoding] and [track_amp] are written but never
      read by the modelled functions; [clock] is unbounded. *)
  Record engine := Engine {
    en_graph : graph;
    en_dest : nat;
    en_input : nat;
    en_ast : option ast;
    en_info : table;
    en_backup : table;
    en_temp : list nat;
    en_samples : gmap string (sample L);
    en_bpm : f32;
    en_sr : Z;
    en_seed : Z;
    en_clock : Z
  }.

  Definition set_graph (e : engine) (g : graph) : engine :=
    Engine g (en_dest e) (en_input e) (en_ast e) (en_info e) (en_backup e) (en_temp e)
           (en_samples e) (en_bpm e) (en_sr e) (en_seed e) (en_clock e).
  Definition set_temp (e : engine) (t : list nat) : engine :=
    Engine (en_graph e) (en_dest e) (en_input e) (en_ast e) (en_info e) (en_backup e) t
           (en_samples e) (en_bpm e) (en_sr e) (en_seed e) (en_clock e).
  Definition set_info (e : engine) (t : table) : engine :=
    Engine (en_graph e) (en_dest e) (en_input e) (en_ast e) t (en_backup e) (en_temp e)
           (en_samples e) (en_bpm e) (en_sr e) (en_seed e) (en_clock e).

  Definition the_env (e : engine) : env (sample L) :=
    Env (en_samples e) (en_sr e) (en_bpm e) (en_seed e).

  Definition input_name : string := "~input".

  Definition default_bpm : f32 := f_of_Z 120.

  (** lib.rs:57-76 with context.rs:103-121: node 0 is the destination, node 1 the
      context's own input node, node 2 the "~input" chain. *)
  Definition engine_new : engine :=
    let '(g0, d) := add_node g_empty (dest_w L) in
    let '(g1, i) := add_node g0 (pass_w L) in
    let '(g2, p) := add_node g1 (pass_w L) in
    Engine g2 d i None {[ input_name := [p] ]} {[ input_name := [p] ]} [] ∅
           default_bpm 44100%Z 42%Z 0%Z.

  (** lib.rs:148-161 with context.rs:123-134. [sr] is kept. *)
  Definition engine_reset (e : engine) : engine :=
    let '(g0, d) := add_node g_empty (dest_w L) in
    let '(g1, i) := add_node g0 (pass_w L) in
    Engine g1 d i None ∅ ∅ [] ∅ default_bpm (en_sr e) 42%Z 0%Z.

  (** lib.rs:143-146. *)
  Definition add_sample (e : engine) (name : string) (s : sample L) : engine :=
    Engine (en_graph e) (en_dest e) (en_input e) (en_ast e) (en_info e) (en_backup e) (en_temp e)
           (<[name := s]> (en_samples e)) (en_bpm e) (en_sr e) (en_seed e) (en_clock e).

  (** [graph[n].node.send_msg(m)]: panics when [n] is not a live node. *)
  Definition send_to (g : graph) (n : nat) (m : msg) : res graph :=
    match node_weight g n with
    | Some w => match nmsg w.1 m with
                | Ok st => set_weight g n (st, w.2)
                | Panic => Panic
                end
    | None => Panic
    end.

  (** context.rs:180-184. *)
  Definition connect (g : graph) (from to : nat) : res graph :=
    match add_edge g from to with
    | Ok g' => send_to g' to (Index from)
    | Panic => Panic
    end.

  (** context.rs:186-192. *)
  Definition connect_with_order (g : graph) (from to pos : nat) : res graph :=
    match add_edge g from to with
    | Ok g' => send_to g' to (IndexOrder pos from)
    | Panic => Panic
    end.

  (** lib.rs:24-32 [GraphDiff]; [node_update_list] is never filled (lib.rs:332 is its
      only other use), so lines 326-457 are dead and not represented. *)
  Record diff := Diff {
    d_refs : list (list string * string * nat);
    d_adds : list (string * nat * W);
    d_rems : list (string * nat)
  }.
  Definition diff0 : diff := Diff [] [] [].

  (** lib.rs:190-211 [add_nodes]. *)
  Fixpoint add_nodes (ev : env (sample L)) (name : string) (l : list (nat * comp L)) (d : diff)
    : outcome diff :=
    match l with
    | [] => Done d
    | (i, c) :: l' =>
        match makenode ev c with
        | Done (w, refs) =>
            let refs' := match refs with
                         | [] => d_refs d
                         | _ => d_refs d ++ [(refs, name, i)]
                         end in
            add_nodes ev name l' (Diff refs' (d_adds d ++ [(name, i, w)]) (d_rems d))
        | Fail e => Fail e
        | Crash => Crash
        end
    end.

  Definition enumerate {A} (l : list A) : list (nat * A) := imap pair l.

  (** [new_chain.iter().enumerate().find(|(_, comp)| old_comp == *comp)], lib.rs:231-234. *)
  Definition find_comp (c : comp L) (news : list (comp L)) : option (nat * comp L) :=
    list_find (fun c' => comp_eqb c c' = true) news.

  (** lib.rs:230-258: one old component. *)
  Definition diff_old (name : string) (news : list (comp L)) (d : diff) (oc : nat * comp L) : diff :=
    match find_comp oc.2 news with
    | Some (idx, nc) =>
        match all_refs nc with
        | [] => d
        | refs => Diff (d_refs d ++ [(refs, name, idx)]) (d_adds d) (d_rems d)
        end
    | None => Diff (d_refs d) (d_adds d) (d_rems d ++ [(name, oc.1)])
    end.

  (** lib.rs:214-275: one chain of the new program. *)
  Definition diff_chain (ev : env (sample L)) (old : ast) (d : diff) (nc : string * list (comp L))
    : outcome diff :=
    match old !! nc.1 with
    | None => add_nodes ev nc.1 (enumerate nc.2) d
    | Some olds =>
        let d' := foldl (diff_old nc.1 nc.2) d (enumerate olds) in
        add_nodes ev nc.1
          (filter (fun p => existsb (fun oc => comp_eqb oc p.2) olds = false) (enumerate nc.2)) d'
    end.

  Fixpoint diff_chains (ev : env (sample L)) (old : ast) (l : list (string * list (comp L))) (d : diff)
    : outcome diff :=
    match l with
    | [] => Done d
    | nc :: l' => match diff_chain ev old d nc with
                  | Done d' => diff_chains ev old l' d'
                  | Fail e => Fail e
                  | Crash => Crash
                  end
    end.

  (** lib.rs:279-287: forget chains that are not in the new program; their nodes are
      to be removed.  [remove_entry(..).expect(..)] panics if absent. *)
  Definition drop_chain (new : ast) (st : table * list nat) (key : string) : res (table * list nat) :=
    if decide (is_Some (new !! key)) then Ok st
    else match st.1 !! key with
         | Some ids => Ok (delete key st.1, st.2 ++ ids)
         | None => Panic
         end.
  Definition drop_chains (sh : shuffle) (old new : ast) (t : table) : res (table * list nat) :=
    foldM (drop_chain new) (t, []) (sh _ (map_to_list old).*1).

  (** lib.rs:290-298: removals are popped from the end of the list. *)
  Definition remove_pos (st : table * list nat) (r : string * nat) : res (table * list nat) :=
    match st.1 !! r.1 with
    | Some ids =>
        match ids !! r.2 with
        | Some id =>
            match vec_remove r.2 ids with
            | Ok ids' => Ok (<[r.1 := ids']> st.1, st.2 ++ [id])
            | Panic => Panic
            end
        | None => Panic
        end
    | None => Ok st
    end.
  Definition remove_all (rems : list (string * nat)) (st : table * list nat) : res (table * list nat) :=
    foldM remove_pos st (rev rems).

  (** lib.rs:315-324. *)
  Definition add_one (st : graph * list nat * table) (a : string * nat * W)
    : res (graph * list nat * table) :=
    let '(g, temp, t) := st in
    let '(name, pos, w) := a in
    let '(g', id) := add_node g w in
    match t !! name with
    | Some ids => match vec_insert pos id ids with
                  | Ok ids' => Ok (g', temp ++ [id], <[name := ids']> t)
                  | Panic => Panic
                  end
    | None => Ok (g', temp ++ [id], <[name := [id]]> t)
    end.

  (** lib.rs:460-489 [handle_ref_check]: the first missing reference, if any. *)
  Definition ref_ok (t : table) (new : ast) (r : string) : bool :=
    if contains_dotdot r
    then existsb (fun k => starts_with k (remove_dotdot r)) (map_to_list t).*1
    else bool_decide (is_Some (new !! r)) || bool_decide (is_Some (t !! r)).
  Fixpoint ref_check (t : table) (new : ast) (rs : list string) : option string :=
    match rs with
    | [] => None
    | r :: rs' => if ref_ok t new r then ref_check t new rs' else Some r
    end.
  Definition ref_names (refs : list (list string * string * nat)) : list string :=
    List.concat (map (fun p => p.1.1) refs).

  (** lib.rs:525-535: connect one reference.  [self.index_info[refname]] and
      [last().unwrap()] panic when absent. *)
  Definition connect_last (ids : list nat) (to : nat) (g : graph) : res graph :=
    match last ids with
    | Some id => connect g id to
    | None => Panic
    end.
  Definition connect_ref (sh : shuffle) (t : table) (to : nat) (g : graph) (r : string) : res graph :=
    if contains_dotdot r
    then foldM (fun g kv => if starts_with kv.1 (remove_dotdot r)
                            then connect_last kv.2 to g else Ok g)
               g (sh _ (map_to_list t))
    else match t !! r with
         | Some ids => connect_last ids to g
         | None => Panic
         end.

  (** lib.rs:506-536.  The state carries the set of nodes already reset and an error
      that stops the loop (lib.rs:508-510). *)
  Definition ref_state := (graph * list nat * option engine_error)%type.
  Definition connect_refs_one (sh : shuffle) (t : table) (st : ref_state)
      (p : list string * string * nat) : res ref_state :=
    let '(g, seen, err) := st in
    match err with
    | Some _ => Ok st
    | None =>
        match t !! p.1.2 with
        | None => Ok (g, seen, Some (NonExistReference p.1.2))
        | Some ids =>
            match ids !! p.2 with
            | None => Panic
            | Some idx =>
                let after_reset :=
                  if decide (idx ∈ seen) then Ok (g, seen)
                  else match send_to g idx ResetOrder with
                       | Ok g' => Ok (g', idx :: seen)
                       | Panic => Panic
                       end in
                match after_reset with
                | Ok (g', seen') =>
                    match foldM (connect_ref sh t idx) g' p.1.1 with
                    | Ok g'' => Ok (g'', seen', None)
                    | Panic => Panic
                    end
                | Panic => Panic
                end
            end
        end
    end.

  (** lib.rs:534-548. *)
  Definition connect_chain (dest : nat) (g : graph) (kv : string * list nat) : res graph :=
    match foldM (fun g p => connect_with_order g p.1 p.2 0) g (windows2 kv.2) with
    | Ok g' =>
        if contains_char "~" kv.1 then Ok g'
        else match last kv.2 with
             | Some e => connect_with_order g' e dest 0
             | None => Ok g'
             end
    | Panic => Panic
    end.

  (** lib.rs:557-566. *)
  Definition clean_up (e : engine) : engine :=
    set_info (set_graph e (foldl remove_node (en_graph e) (en_temp e))) (en_backup e).

  (** Iteration orders used by one update: new program, old program, the chain table
      for loose references, the chain table for the chain connections. *)
  Record orders := Orders { o_new : shuffle; o_old : shuffle; o_wild : shuffle; o_conn : shuffle }.

  (** lib.rs:213-313: diff and detach.  [Fail] happens before any change. *)
  Definition plan (o : orders) (e : engine) (new : ast) : outcome (diff * table * list nat) :=
    match en_ast e with
    | Some old =>
        match diff_chains (the_env e) old (o_new o _ (map_to_list new)) diff0 with
        | Done d =>
            match drop_chains (o_old o) old new (en_info e) with
            | Ok st => match remove_all (d_rems d) st with
                       | Ok (t, ids) => Done (d, t, ids)
                       | Panic => Crash
                       end
            | Panic => Crash
            end
        | Fail er => Fail er
        | Crash => Crash
        end
    | None =>
        match diff_chains (the_env e) ∅ (o_new o _ (map_to_list new)) diff0 with
        | Done d => Done (d, en_info e, [])
        | Fail er => Fail er
        | Crash => Crash
        end
    end.

  (** lib.rs:497-553: remove nodes, rebuild all connections, commit. *)
  Definition rewire (o : orders) (e : engine) (new : ast) (d : diff) (idrem : list nat)
    : res (engine * option engine_error) :=
    let g1 := clear_edges (foldl remove_node (en_graph e) idrem) in
    match foldM (connect_refs_one (o_wild o) (en_info e)) (g1, [], None) (d_refs d) with
    | Ok (g2, _, Some er) => Ok (set_graph e g2, Some er)
    | Ok (g2, _, None) =>
        match foldM (connect_chain (en_dest e)) g2 (o_conn o _ (map_to_list (en_info e))) with
        | Ok g3 =>
            Ok (Engine g3 (en_dest e) (en_input e) (Some new) (en_info e) (en_info e) (en_temp e)
                       (en_samples e) (en_bpm e) (en_sr e) (en_seed e) (en_clock e), None)
        | Panic => Panic
        end
    | Panic => Panic
    end.

  (** lib.rs:172-555 once the source has been parsed. *)
  Definition update_ast (o : orders) (e0 : engine) (new : ast) : res (engine * option engine_error) :=
    let e := set_temp e0 [] in                                   (* lib.rs:183 *)
    match plan o e new with
    | Crash => Panic
    | Fail er => Ok (e, Some er)                                 (* [?] at lib.rs:200 *)
    | Done (d, t, idrem) =>
        match foldM add_one (en_graph e, [], t) (d_adds d) with
        | Panic => Panic
        | Ok (g, temp, t') =>
            let e1 := set_info (set_temp (set_graph e g) temp) t' in
            match ref_check t' new (ref_names (d_refs d)) with
            | Some r => Ok (clean_up e1, Some (NonExistReference r))
            | None => rewire o e1 new d idrem
            end
        end
    end.

  (** lib.rs:172: [update_with_code]. *)
  Definition update (o : orders) (e : engine) (code : text L) : res (engine * option engine_error) :=
    match parse code with
    | Done new => update_ast o e new
    | Fail er => Ok (e, Some er)
    | Crash => Panic
    end.

  (** lib.rs:568-576: write one channel of external input. *)
  Definition write_channel (e : engine) (ch : nat) (s : slice L) : res engine :=
    match en_info e !! input_name with
    | None => Panic
    | Some ids =>
        match ids !! 0 with
        | None => Panic
        | Some id =>
            match node_weight (en_graph e) id with
            | None => Panic
            | Some w =>
                match w.2 !! ch with
                | None => Panic
                | Some b =>
                    match copy_slice b s with
                    | Panic => Panic
                    | Ok b' =>
                        match set_weight (en_graph e) id (w.1, <[ch := b']> w.2) with
                        | Ok g => Ok (set_graph e g)
                        | Panic => Panic
                        end
                    end
                end
            end
        end
    end.

  Definition write_input (e : engine) (ins : list (slice L)) : res engine :=
    match ins with
    | [] => Ok e
    | s0 :: rest =>
        match write_channel e 0 s0 with
        | Panic => Panic
        | Ok e1 => match rest with
                   | [] => Ok e1
                   | s1 :: _ => write_channel e1 1 s1
                   end
        end
    end.

  (** lib.rs:568-586; [blk] is the const generic block size N.  The output is a copy
      of the destination's buffers. *)
  Definition next_block (blk : Z) (shs : nat -> shuffle) (e : engine) (ins : list (slice L))
    : res (engine * list (buf L)) :=
    match write_input e ins with
    | Panic => Panic
    | Ok e1 =>
        match process nproc shs (en_graph e1) (en_dest e1) with
        | Panic => Panic
        | Ok g =>
            match node_weight g (en_dest e1) with
            | None => Panic
            | Some w =>
                Ok (Engine g (en_dest e1) (en_input e1) (en_ast e1) (en_info e1) (en_backup e1)
                           (en_temp e1) (en_samples e1) (en_bpm e1) (en_sr e1) (en_seed e1)
                           (en_clock e1 + blk)%Z, w.2)
            end
        end
    end.

  (** lib.rs:78-104: one command of [send_msg] (already split at ';'). *)
  Definition send_command (c : cfg) (e : engine) (command : string) : res engine :=
    match split_on "," command with
    | name :: pos :: par :: value :: _ =>
        let chain_pos := Z.to_nat (default 0%Z (parse_usize c pos)) in
        let param_pos := default 0%Z (parse_u8 par) in
        match en_info e !! name with
        | None => Ok e
        | Some ids =>
            match ids !! chain_pos with
            | None => Panic
            | Some id =>
                let m := match parse_f32 value with
                         | Some v => SetToNumber param_pos v
                         | None => SetToSymbol param_pos value
                         end in
                match send_to (en_graph e) id m with
                | Ok g => Ok (set_graph e g)
                | Panic => Panic
                end
            end
        end
    | _ => Ok e
    end.
  Definition send_msg (c : cfg) (e : engine) (m : string) : res engine :=
    let commands := split_on ";" (sfilter (fun ch => negb (is_space ch)) m) in
    foldM (send_command c) e (filter (fun s => s ≠ EmptyString) commands).

  (** lib.rs:588-591 with context.rs:256-260. *)
  Definition send_to_all (g : graph) (m : msg) : res graph :=
    match mapR (fun s => match s with
                         | Some w => match nmsg w.1 m with
                                     | Ok st => Ok (Some (st, w.2))
                                     | Panic => Panic
                                     end
                         | None => Ok None
                         end) (slots g) with
    | Ok sl => Ok (SGraph sl (free g) (edges g))
    | Panic => Panic
    end.
  Definition set_bpm (e : engine) (bpm : f32) : res engine :=
    match send_to_all (en_graph e) (SetBPM bpm) with
    | Ok g => Ok (Engine g (en_dest e) (en_input e) (en_ast e) (en_info e) (en_backup e) (en_temp e)
                         (en_samples e) bpm (en_sr e) (en_seed e) (en_clock e))
    | Panic => Panic
    end.
  (** lib.rs:592-597. *)
  Definition set_sr (e : engine) (sr : Z) : engine :=
    Engine (en_graph e) (en_dest e) (en_input e) (en_ast e) (en_info e) (en_backup e) (en_temp e)
           (en_samples e) (en_bpm e) sr (en_seed e) (en_clock e).
  Definition set_seed (e : engine) (seed : Z) : engine :=
    Engine (en_graph e) (en_dest e) (en_input e) (en_ast e) (en_info e) (en_backup e) (en_temp e)
           (en_samples e) (en_bpm e) (en_sr e) seed (en_clock e).

  (** Public API calls, with the hash orders each call meets; [step] returns the new
      engine and what the caller observes. *)
  Inductive call :=
  | CUpdate (o : orders) (code : text L)
  | CNext (shs : nat -> shuffle) (ins : list (slice L))
  | CMsg (c : cfg) (m : string)
  | CSample (name : string) (s : sample L)
  | CBpm (bpm : f32)
  | CSr (sr : Z)
  | CSeed (seed : Z)
  | CReset.
  Inductive obs :=
  | ODone
  | OError (er : engine_error)
  | OBlock (b : list (buf L)).

  Definition step (blk : Z) (e : engine) (c : call) : res (engine * obs) :=
    match c with
    | CUpdate o code =>
        match update o e code with
        | Ok (e', None) => Ok (e', ODone)
        | Ok (e', Some er) => Ok (e', OError er)
        | Panic => Panic
        end
    | CNext shs ins =>
        match next_block blk shs e ins with
        | Ok (e', b) => Ok (e', OBlock b)
        | Panic => Panic
        end
    | CMsg c m => match send_msg c e m with Ok e' => Ok (e', ODone) | Panic => Panic end
    | CSample n s => Ok (add_sample e n s, ODone)
    | CBpm b => match set_bpm e b with Ok e' => Ok (e', ODone) | Panic => Panic end
    | CSr sr => Ok (set_sr e sr, ODone)
    | CSeed s => Ok (set_seed e s, ODone)
    | CReset => Ok (engine_reset e, ODone)
    end.

  (** A history: the final engine and all observations, or a panic. *)
  Fixpoint run (blk : Z) (e : engine) (cs : list call) : res (engine * list obs) :=
    match cs with
    | [] => Ok (e, [])
    | c :: cs' =>
        match step blk e c with
        | Ok (e', ob) => match run blk e' cs' with
                         | Ok (e'', obs) => Ok (e'', ob :: obs)
                         | Panic => Panic
                         end
        | Panic => Panic
        end
    end.
End engine.
