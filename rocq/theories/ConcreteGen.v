(** * Concrete generators used beside the property theorems *)
From Verif Require Import PyBase Model Spec History Reach Concrete ListClass ClassSpec ModelSet SetSpec ConcreteSet
  ModelDict DictSpec ConcreteDict ModelGen GenSpec.
Local Unset Implicit Arguments.

Lemma calls_yields {Op Out A} (P : Op -> Prop) (l : list A) (g : gen Op Out A) : calls P g -> calls P (yields l g).
Proof. intros H. induction l; [exact H|exact IHl]. Qed.

(** Take the first value out, yield it back with another tag, add a value, then yield all values
    there are. *)
Definition lgen : gen (lop pv) (out pv) pv :=
  GCall (LPop 0) (fun r => match r with
    | RVal v => GYield (fst v, 77) (GCall (LAdd (6, 6)) (fun _ => GCall LIter (fun r => match r with
        | RList l => yields l GEnd
        | _ => GRaise TypeError
        end)))
    | _ => GRaise IndexError
    end).
Lemma lgen_calls : calls lop_in_place lgen.
Proof.
  split; [exact I|]. intros []; try exact I. split; [exact I|]. intros _. split; [exact I|].
  intros []; try exact I. apply calls_yields. exact I.
Qed.
(** Remove a value, then one that is not there, and pass the exception on. *)
Definition lgen_raise : gen (lop pv) (out pv) pv :=
  GCall (LRemove (5, 0)) (fun _ => GYield (4, 4) (GCall (LRemove (100, 0)) (fun r => match r with
    | RExn e => GRaise e
    | _ => GEnd
    end))).
Lemma lgen_raise_calls : calls lop_in_place lgen_raise.
Proof. split; [exact I|]. intros _. split; [exact I|]. intros []; exact I. Qed.

(** The same as [lgen] for the other classes. *)
Definition kgen : gen (kop pv nat) (out pv) pv :=
  GCall (KList (LPop 0)) (fun r => match r with
    | RVal v => GYield (fst v, 77) (GCall (KIRange (Some 3) None true true false) (fun r => match r with
        | RList l => yields l GEnd
        | _ => GRaise TypeError
        end))
    | _ => GRaise IndexError
    end).
Lemma kgen_calls : calls (fun o => kop_in_place o /\ comparable pltb pairb o) kgen.
Proof.
  split; [split; exact I|]. intros []; try exact I. split; [split; exact I|].
  intros []; try exact I. apply calls_yields. exact I.
Qed.
Definition sgen : gen (sop pv nat) (out pv) pv :=
  GCall (SDiscard (3, 0)) (fun _ => GYield (3, 7) (GCall (SAdd (6, 6)) (fun _ => GYield (6, 7) (GYield (20, 0)
    (GCall (SGet 0) (fun r => match r with RVal v => GYield v GEnd | _ => GRaise IndexError end)))))).
Lemma sgen_calls : calls sop_in_place sgen.
Proof. split; [exact I|]. intros _. split; [exact I|]. intros _. split; [exact I|]. intros []; exact I. Qed.
(** Yield every key with its value plus one, removing one item on the way. *)
Definition dgen : gen (dop pv nat nat) (dout pv nat) (pv * nat) :=
  GCall (DPop (3, 0) None) (fun _ => GCall DItems (fun r => match r with
    | OItems l => yields (map (fun p => (fst p, snd p + 1)) l) GEnd
    | _ => GRaise TypeError
    end)).
Lemma dgen_calls : calls (fun o => dop_in_place o /\ dop_ok peqb o) dgen.
Proof.
  split; [split; exact I|]. intros _. split; [split; exact I|]. intros []; try exact I. apply calls_yields. exact I.
Qed.
