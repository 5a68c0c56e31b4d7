(** * Ast: the components of a program, /repo/rs/parser/src/nodes.rs. *)
From Verif Require Export NodesSeq.
Local Open Scope Z_scope.

(** nodes.rs:639 [EventValue], nodes.rs:645 [EventInner], nodes.rs:688 [Pattern],
    nodes.rs:722 [Signal], nodes.rs:892 [PSampler]. *)
Inductive evval := EvSym (s : string) | EvNum (v : f32).
Notation evinner := (list (evval * f32)).
Inductive signal := SigNum (v : f32) | SigRef (s : string) | SigEvent (e : evinner)
                  | SigPattern (e : evinner) (span : f32).
Inductive psam := PsEvent (e : evinner) | PsPattern (e : evinner) (span : f32).

(** nodes.rs:54-97 [Component], each with the fields of its struct. *)
Inductive component :=
| CPoints (pts : list (timelist * f32)) (span : f32) (loop : bool)
| CDelayn (p : usizeref)
| CDelayms (p : numref)
| CImp (p : numref)
| CTri (p : numref)
| CSqu (p : numref)
| CSaw (p : numref)
| COnepole (p : numref)
| CSin (p : numref)
| CMul (p : numref)
| CAdd (p : numref)
| CPan (p : numref)
| CSeq (events : list (f32 * usizeref))
| CChoose (choices : list f32)
| CArrange (events : list numref)
| CMix (nodes : list string)
| CSp (sym : string)
| CSpeed (v : f32)
| CConstSig (v : f32)
| CAdc (port : Z)
| CBd (p : numref)
| CSn (p : numref)
| CHh (p : numref)
| CSawSynth (attack decay : f32)
| CSquSynth (attack decay : f32)
| CTriSynth (attack decay : f32)
| CMsgSynth (sym : string) (attack decay : f32)
| CPatternSynth (sym : string) (span : f32)
| CLpf (sg : signal) (q : f32)
| CPSampler (p : psam)
| CBalance (left right : string)
| CRhpf (p : numref) (q : f32)
| CApfmsGain (p : numref) (gain : f32)
| CReverb (dampening room width wet dry : f32)
| CPlate (mix : f32)
| CEnvPerc (attack decay : f32)
| CAdsr (attack decay sustain release : f32)
| CGet (r : string)
| CNoise (seed : Z)
| CMeta (code : string)
| CExpr (code : string)
| CEval (code : string).

(** The derived [PartialEq]: f32 fields are compared with [==]. *)
Definition seqb (a b : string) : bool := String.eqb a b.
Definition numref_eqb (a b : numref) : bool :=
  match a, b with
  | Num x, Num y => feqb x y
  | NRef x, NRef y => seqb x y
  | _, _ => false
  end.
Definition usizeref_eqb (a b : usizeref) : bool :=
  match a, b with
  | Usz x, Usz y => x =? y
  | URef x, URef y => seqb x y
  | _, _ => false
  end.
Definition duration_eqb (a b : duration) : bool :=
  match a, b with
  | DBar x, DBar y | DSec x, DSec y | DMs x, DMs y => feqb x y
  | _, _ => false
  end.
Definition option_eqb {A} (e : A -> A -> bool) (a b : option A) : bool :=
  match a, b with Some x, Some y => e x y | None, None => true | _, _ => false end.
Definition timelist_eqb (a b : timelist) : bool :=
  feqb (tl_bar a) (tl_bar b) && option_eqb duration_eqb (tl_time a) (tl_time b).
Fixpoint list_eqb {A} (e : A -> A -> bool) (a b : list A) : bool :=
  match a, b with
  | [], [] => true
  | x :: a', y :: b' => e x y && list_eqb e a' b'
  | _, _ => false
  end.
Definition pair_eqb {A B} (ea : A -> A -> bool) (eb : B -> B -> bool) (a b : A * B) : bool :=
  ea a.1 b.1 && eb a.2 b.2.
Definition evval_eqb (a b : evval) : bool :=
  match a, b with
  | EvSym x, EvSym y => seqb x y
  | EvNum x, EvNum y => feqb x y
  | _, _ => false
  end.
Definition evinner_eqb : evinner -> evinner -> bool := list_eqb (pair_eqb evval_eqb feqb).
Definition signal_eqb (a b : signal) : bool :=
  match a, b with
  | SigNum x, SigNum y => feqb x y
  | SigRef x, SigRef y => seqb x y
  | SigEvent x, SigEvent y => evinner_eqb x y
  | SigPattern x p, SigPattern y q => evinner_eqb x y && feqb p q
  | _, _ => false
  end.
Definition psam_eqb (a b : psam) : bool :=
  match a, b with
  | PsEvent x, PsEvent y => evinner_eqb x y
  | PsPattern x p, PsPattern y q => evinner_eqb x y && feqb p q
  | _, _ => false
  end.
Definition component_eqb (a b : component) : bool :=
  match a, b with
  | CPoints p s l, CPoints p' s' l' =>
      list_eqb (pair_eqb timelist_eqb feqb) p p' && feqb s s' && Bool.eqb l l'
  | CDelayn x, CDelayn y => usizeref_eqb x y
  | CDelayms x, CDelayms y | CImp x, CImp y | CTri x, CTri y | CSqu x, CSqu y | CSaw x, CSaw y
  | COnepole x, COnepole y | CSin x, CSin y | CMul x, CMul y | CAdd x, CAdd y | CPan x, CPan y
  | CBd x, CBd y | CSn x, CSn y | CHh x, CHh y => numref_eqb x y
  | CSeq x, CSeq y => list_eqb (pair_eqb feqb usizeref_eqb) x y
  | CChoose x, CChoose y => list_eqb feqb x y
  | CArrange x, CArrange y => list_eqb numref_eqb x y
  | CMix x, CMix y => list_eqb seqb x y
  | CSp x, CSp y | CGet x, CGet y | CMeta x, CMeta y | CExpr x, CExpr y | CEval x, CEval y => seqb x y
  | CSpeed x, CSpeed y | CConstSig x, CConstSig y | CPlate x, CPlate y => feqb x y
  | CAdc x, CAdc y | CNoise x, CNoise y => x =? y
  | CSawSynth x x', CSawSynth y y' | CSquSynth x x', CSquSynth y y' | CTriSynth x x', CTriSynth y y'
  | CEnvPerc x x', CEnvPerc y y' => feqb x y && feqb x' y'
  | CMsgSynth s x x', CMsgSynth t y y' => seqb s t && feqb x y && feqb x' y'
  | CPatternSynth s x, CPatternSynth t y => seqb s t && feqb x y
  | CLpf s x, CLpf t y => signal_eqb s t && feqb x y
  | CPSampler x, CPSampler y => psam_eqb x y
  | CBalance x x', CBalance y y' => seqb x y && seqb x' y'
  | CRhpf s x, CRhpf t y | CApfmsGain s x, CApfmsGain t y => numref_eqb s t && feqb x y
  | CReverb a b c d e, CReverb a' b' c' d' e' =>
      feqb a a' && feqb b b' && feqb c c' && feqb d d' && feqb e e'
  | CAdsr a b c d, CAdsr a' b' c' d' => feqb a a' && feqb b b' && feqb c c' && feqb d d'
  | _, _ => false
  end.

(** nodes.rs:100-179 [Component::all_references]. *)
Definition numref_refs (p : numref) : list string := match p with NRef s => [s] | Num _ => [] end.
Definition usizeref_refs (p : usizeref) : list string := match p with URef s => [s] | Usz _ => [] end.
Definition component_refs (c : component) : list string :=
  match c with
  | CDelayn p => usizeref_refs p
  | CDelayms p | CImp p | CTri p | CSqu p | CSaw p | COnepole p | CSin p | CMul p | CAdd p | CPan p
  | CBd p | CSn p | CHh p | CRhpf p _ | CApfmsGain p _ => numref_refs p
  | CLpf (SigRef s) _ => [s]
  | CGet s => [s]
  | CSeq evs => List.concat (map (fun e => usizeref_refs e.2) evs)
  | CArrange evs => List.concat (map numref_refs evs)
  | CMix l => l
  | CBalance l r => [l; r]
  | _ => []
  end.
