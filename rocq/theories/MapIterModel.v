(** Model of references and iterators into Map objects: operator[] (Map.hpp
    103-114) and begin, end and find (117-119, 131-137), over the trees of
    TreeWorld.v.  The iterators are those of the AVLTree (Map.hpp 63). *)
From Verif Require Import Base TreeModel TreeWorld TreeIterModel.

(** What a client can do: any call on a map; [NRef k id key]: [k = &m[key]];
    [NGet k] and [NPut k v]: reading and assigning through such a reference; and
    iterator operations, as in TreeIterModel.v. *)
Inductive nop (K V : Type) :=
| NMap (o : mop K V)
| NRef (k id : nat) (key : K) | NGet (k : nat) | NPut (k : nat) (v : V)
| NBegin (k id : nat) | NEnd (k id : nat) | NFind (k id : nat) (key : K)
| NCopy (k j : nat) | NNext (k : nat) | NPostNext (k j : nat) | NRead (k : nat) | NEq (k j : nat) | NNe (k j : nat).
Arguments NMap {K V} o.
Arguments NRef {K V} k id key.
Arguments NGet {K V} k.
Arguments NPut {K V} k v.
Arguments NBegin {K V} k id.
Arguments NEnd {K V} k id.
Arguments NFind {K V} k id key.
Arguments NCopy {K V} k j.
Arguments NNext {K V} k.
Arguments NPostNext {K V} k j.
Arguments NRead {K V} k.
Arguments NEq {K V} k j.
Arguments NNe {K V} k j.

Section Model.
Context {K V : Type} (lt : K -> K -> bool) (dflt : V).
Notation N := (M (kworld (K * V))).

(** The answers of tree iterators as answers of map iterators. *)
Definition as_mout (r : tout (K * V)) : mout (K := K) (V := V) :=
  match r with OUnit => MUnit | OZ n => MZ n | OBool b => MBool b | OOpt o => MOpt o | OList l => MList l end.
Definition n_it (o : kop (K * V)) : N mout := r <- kt_step (kv_cmp lt) o ;; ret (as_mout r).

(** One step.  Variables hold node addresses, of references as of iterators; a
    reference is to the member `value` of the node's data (Map.hpp 21). *)
Definition n_step (o : nop K V) : N mout :=
  match o with
  | NMap o => on_trees (m_step lt dflt o)
  | NRef k id key => p <- on_trees (on id (map_index lt dflt key)) ;; set_kt k p ;;; ret MUnit
  | NGet k => p <- get_kt k ;; kv <- on_trees (on_nodes (ld_val p)) ;; ret (MVal (snd kv))
  | NPut k v => p <- get_kt k ;; on_trees (on_nodes (kv <- ld_val p ;; st_val p (fst kv, v))) ;;; ret MUnit
  | NBegin k id => n_it (KBegin k id)
  | NEnd k id => n_it (KEnd k id)
  | NFind k id key => n_it (KFind k id (key, dflt))
  | NCopy k j => n_it (KCopy k j)
  | NNext k => n_it (KNext k)
  | NPostNext k j => n_it (KPostNext k j)
  | NRead k => n_it (KRead k)
  | NEq k j => n_it (KEq k j)
  | NNe k j => n_it (KNe k j)
  end.
End Model.
