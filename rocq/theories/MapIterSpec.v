(** What references and iterators into maps should do.  Every entry gets a number
    when it comes into being and keeps it until it is removed; references and
    iterators are at an entry, by number, or past the end. *)
From Verif Require Import Base VectorSpec TreeModel TreeSpec TreeWorld TreeWSpec ListIterSpec TreeIterModel TreeIterSpec MapIterModel.

Section Spec.
Context {K V : Type} (lt : K -> K -> bool) (dflt : V).
Notation A := (K * V)%type.
Notation cmp := (kv_cmp (V := V) lt).

(** The entry with the key [key], by number. *)
Definition at_key (key : K) (l : list (nat * A)) : option nat := fst <$> List.find (fun p => same_key lt key (fst (snd p))) l.
(** m[key]: the entry with that key, after making one if there is none. *)
Definition ref_of (id : nat) (key : K) (s : kspec) : sres (nat * kspec) :=
  with_set (k_sets s) id (fun l =>
    match at_key key l with
    | Some n => SVal (n, s)
    | None => SVal (k_next s, KSpec (<[id := add_set (by_val cmp) (k_next s, (key, dflt)) l]> (k_sets s)) (S (k_next s)) (k_its s))
    end).
Definition get_val (n : nat) (s : kspec (A := A)) : sres V :=
  match where_is n (k_sets s) with Some (_, (_, (_, v), _)) => SVal v | None => SUnspec end.
Definition put_val (n : nat) (v : V) (s : kspec (A := A)) : sres kspec :=
  match where_is n (k_sets s) with
  | Some (id, (us, (key, _), vs)) => SVal (KSpec (<[id := us ++ (n, (key, v)) :: vs]> (k_sets s)) (k_next s) (k_its s))
  | None => SUnspec
  end.

(** The calls that do to a map what the same call does to a set of pairs. *)
Definition as_top (o : mop K V) : option (top A) :=
  match o with
  | MNew id => Some (TNew id) | MDestroy id => Some (TDestroy id)
  | MPush id k v => Some (TPush id (k, v)) | MPop id k => Some (TPop id (k, dflt)) | MFind id k => Some (TFind id (k, dflt))
  | MSize id => Some (TSize id) | MEmpty id => Some (TEmpty id) | MIter id => Some (TIter id) | MClear id => Some (TClear id)
  | MCopyNew id src => Some (TCopyNew id src) | MAssign id src => Some (TAssign id src)
  | MSet _ _ _ | MGet _ _ => None
  end.
Definition sthen {X Y} (r : sres X) (k : X -> sres Y) : sres Y := match r with SVal x => k x | SAbort => SAbort | SUnspec => SUnspec end.
Definition as_answer (r : sres (tout A * kspec)) : sres (mout (K := K) (V := V) * kspec (A := A)) := sthen r (fun p => SVal (as_mout (fst p), snd p)).

Definition maps_step (o : mop K V) (s : kspec) : sres (mout (K := K) (V := V) * kspec) :=
  match o with
  | MSet id key v => sthen (ref_of id key s) (fun p => sthen (put_val (fst p) v (snd p)) (fun s' => SVal (MUnit, s')))
  | MGet id key => sthen (ref_of id key s) (fun p => sthen (get_val (fst p) (snd p)) (fun v => SVal (MVal v, snd p)))
  | _ => match as_top o with Some o => as_answer (trees_step cmp o s) | None => SUnspec end
  end.
Definition ns_step (o : nop K V) (s : kspec) : sres (mout (K := K) (V := V) * kspec) :=
  match o with
  | NMap o => maps_step o s
  | NRef k id key => sthen (ref_of id key s) (fun p => SVal (MUnit, put_kt (snd p) k (Some (fst p))))
  | NGet k => with_kt s k (fun p => match p with Some n => sthen (get_val n s) (fun v => SVal (MVal v, s)) | None => SUnspec end)
  | NPut k v => with_kt s k (fun p => match p with Some n => sthen (put_val n v s) (fun s' => SVal (MUnit, s')) | None => SUnspec end)
  | NBegin k id => as_answer (ks_step cmp (KBegin k id) s)
  | NEnd k id => as_answer (ks_step cmp (KEnd k id) s)
  | NFind k id key => as_answer (ks_step cmp (KFind k id (key, dflt)) s)
  | NCopy k j => as_answer (ks_step cmp (KCopy k j) s)
  | NNext k => as_answer (ks_step cmp (KNext k) s)
  | NPostNext k j => as_answer (ks_step cmp (KPostNext k j) s)
  | NRead k => as_answer (ks_step cmp (KRead k) s)
  | NEq k j => as_answer (ks_step cmp (KEq k j) s)
  | NNe k j => as_answer (ks_step cmp (KNe k j) s)
  end.

(** Steps that remove the entry with key [key] from map [id]; what a step
    assigns to entry [n], with that key, of map [id]. *)
Definition nremoves (o : nop K V) (id : nat) (key : K) : bool :=
  match o with
  | NMap (MDestroy i) | NMap (MClear i) => Nat.eqb i id
  | NMap (MPop i k) => Nat.eqb i id && same_key lt k key
  | _ => false
  end.
Definition nassigned (o : nop K V) (s : kspec (A := A)) (id n : nat) (key : K) : option V :=
  match o with
  | NMap (MSet i k v) => if Nat.eqb i id && same_key lt k key then Some v else None
  | NPut k v => match k_its s !! k with Some (Some m) => if Nat.eqb m n then Some v else None | _ => None end
  | _ => None
  end.
End Spec.
