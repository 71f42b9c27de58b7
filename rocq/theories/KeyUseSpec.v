(** * To which values an operation of a SortedKeyList applies the key function *)
From Verif Require Import PyBase Model Spec History.
Local Set Implicit Arguments.

(** Two key functions that answer alike, or raise alike, for the values in [l]. *)
Definition agree {V K} (kf kf' : V -> res K) (l : list V) : Prop := forall v, In v l -> kf v = kf' v.

Definition given {V} (o : option V) : list V := match o with Some v => [v] | None => [] end.

(** [l] is the contents.  A search in an empty list does not ask for a key.  The key of a stored value is asked for again only by
    operations that fill a list anew: those that make a new object, [_reset], [*=], updates by at least a quarter of the length, and
    deletions of at least an eighth of it by a slice with step 1. *)
Definition unless_empty {V W} (l : list W) (v : V) : list V := match l with [] => [] | _ => [v] end.
Definition touches {V K} (o : kop V K) (l : list V) : list V :=
  match o with
  | KList o =>
      match o with
      | LAdd v | LBisectLeft v | LBisectRight v => [v]
      | LDiscard v | LRemove v | LContains v | LCount v => unless_empty l v
      | LIndex v a b => let n := Z.of_nat (length l) in if (win_start a n <? Z.min n (win_stop b n))%Z then [v] else []
      | LIRange mn mx _ _ _ => given mn ++ given mx
      | LUpdate it | LIAdd it => if length l <=? 4 * length it then it ++ l else it
      | LDelSlice sl =>
          match s_step sl, sp_del_slice sl l with
          | None, Ok rest | Some 1%Z, Ok rest => if 8 * (length l - length rest) <? length l then [] else rest
          | _, _ => []
          end
      | LReset _ | LCopy | LReduce => l
      | LIMul n | LMul n => sp_mul n l
      | LPlus it => l ++ it
      | LClear | LGet _ | LSlice _ | LDel _ | LPop _ | LLen | LIter | LReversed | LISlice _ _ _ | LCompare _ _ | LUnsupported => []
      end
  | KBisectLeft _ | KBisectRight _ | KIRange _ _ _ _ _ => []
  end.

Section Drift.
  Context {V K : Type}.
  Variables vlt eq : V -> V -> res bool.
  Variables klt keq : K -> K -> res bool.
  Variable dflt : nat.
  (** A history in which the key function answers differently from one operation to the next. *)
  Definition drift : list ((V -> res K) * kop V K) -> skl V K -> list (out V) * skl V K :=
    run (fun p => skl_step vlt eq klt keq (fst p) dflt (snd p)).

  (** Each time, it answers as [key] does for the values the operation asks about. *)
  Variable key : V -> K.
  Variable kltb : K -> K -> bool.
  Variables vltb eqb : V -> V -> bool.
  Fixpoint faithful (h : list ((V -> res K) * kop V K)) (l : list V) : Prop :=
    match h with
    | [] => True
    | (kf, o) :: t => agree kf (total1 key) (touches o l) /\ faithful t (snd (sp_kstep eqb vltb key kltb o l))
    end.
End Drift.
