(** * SortedSet and SortedDict over lists whose comparisons have effects *)
From Verif Require Import PyBase Model Spec History ListClass ModelEffect.
Local Set Implicit Arguments.

(** The methods of the SortedList inside a SortedSet or SortedDict (sortedset.py:97-157, sorteddict.py:97-170) for a [<] with effects
    (ModelEffect.v).  [==] is that of the hash table, without effects.  New objects (copies, results of operators) start in some world
    [w0].  [_check] is not modelled here. *)
Definition e_plain {W V K} (srt : sorting W) (lt : V -> V -> M W bool) (eqb : V -> V -> bool) (dflt : nat) (w0 : W)
  : listcls (W * core V V) V K :=
  let eq := fun x y => ret (eqb x y) in
  {| l_new it := match e_new srt lt dflt it (w0, sl_init dflt) with (Ok c, s) => Ok (fst s, c) | (Err e, _) => Err e end;
     l_add := e_add lt;
     l_clear := own (@sl_clear V);
     l_update := e_update srt lt;
     l_remove := e_remove lt eq;
     l_pop := pop (e_vt srt lt);
     l_get i := own (getitem_int i);
     l_slice sl := own (getitem_slice sl);
     l_del := delitem_int (e_vt srt lt);
     l_del_slice := delitem_slice (e_vt srt lt);
     l_iter := own iter;
     l_reversed := own reversed;
     l_len := own length_of;
     l_check _ := Err NotImplementedError;
     l_fwd f s := match fwd_op f with
                  | KList o => e_step srt lt eq dflt o s
                  | _ => (RExn AttributeError, s)
                  end |}.

(** With a key function, which has no effects but may raise (C116 shows what happens otherwise); [<] and [==] of keys have effects. *)
Definition e_keyed {W V K} (srt : sorting W) (klt keq : K -> K -> M W bool) (kf : V -> res K) (eqb : V -> V -> bool) (dflt : nat) (w0 : W)
  : listcls (W * skl V K) V K :=
  let eq := fun x y => ret (eqb x y) in
  let key := fun v => liftr (kf v) in
  let T := ek_vt srt klt key in
  {| l_new it := match ek_new srt klt key dflt it (w0, skl_init dflt) with (Ok c, s) => Ok (fst s, c) | (Err e, _) => Err e end;
     l_add := ek_add klt key;
     l_clear := own (@skl_clear V K);
     l_update := ek_update srt klt key;
     l_remove := ek_remove eq klt keq key;
     l_pop := pop T;
     l_get i := oncore T (getitem_int i);
     l_slice sl := oncore T (getitem_slice sl);
     l_del := delitem_int T;
     l_del_slice := delitem_slice T;
     l_iter := oncore T iter;
     l_reversed := oncore T reversed;
     l_len := oncore T length_of;
     l_check _ := Err NotImplementedError;
     l_fwd f s := ek_step srt eq eq klt keq key dflt (fwd_op f) s |}.
