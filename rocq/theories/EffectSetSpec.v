(** * SortedSet and SortedDict over comparisons with effects: vocabulary *)
From Verif Require Import PyBase Model Spec History ListClass ModelEffect EffectSpec ModelEffectSet.
Local Set Implicit Arguments.

(** The list class for some [<] with effects, some way of sorting and some world in which new objects are made. *)
Definition effect_class {W V K} (eqb : V -> V -> bool) (dflt : nat) (T : listcls (W * core V V) V K) : Prop :=
  exists (srt : sorting W) lt w0, permutes srt /\ T = e_plain srt lt eqb dflt w0.
Definition effect_kclass {W V K} (eqb : V -> V -> bool) (kf : V -> res K) (dflt : nat) (T : listcls (W * skl V K) V K) : Prop :=
  exists (srt : sorting W) klt keq w0, permutes srt /\ T = e_keyed srt klt keq kf eqb dflt w0.

(** [e] comes out of [<], or is the IndexError of a search that was led astray (C117). *)
Definition astray {W V} (lt : V -> V -> M W bool) (e : exn) : Prop := (exists x y, may_raise (lt x y) e) \/ e = IndexError.
(** [e] comes out of a comparison of keys or the key function, or is that IndexError. *)
Definition k_astray {W V K} (klt keq : K -> K -> M W bool) (kf : V -> res K) (e : exn) : Prop :=
  (exists x y, may_raise (klt x y) e) \/ (exists x y, may_raise (keq x y) e) \/ (exists v, kf v = Err e) \/ e = IndexError.
