(** What a user expects of moving aggregators: the new object goes on where the old one stopped. *)
From Coq Require Import ZArith List Bool.
From Verif Require Import Base ModelTypes ModelReducer SpecReducer ModelSeparator SpecSeparator ModelAggregator SpecAggregator ModelAggMove.
Import ListNotations.

(** The story of an object: the number of the object that was made from options in the first place and how, and the calls it
    received with their results.  An object made by moving takes the story over; [sy_whole] is false for one that was moved
    from. *)
Record story := mk_story { sy_first : nat; sy_born : aopts * Z * Z * Z; sy_calls : list (gop * aout); sy_whole : bool }.
(** The story of an object that was neither cleared nor moved from goes by the number of its first object. *)
Definition clear_free (l : list (gop * aout)) : bool := forallb (fun p => match fst p with GoClear _ _ => false | _ => true end) l.
Definition mark (s : story) : option nat := if sy_whole s && clear_free (sy_calls s) then Some (sy_first s) else None.
(** For each object its story (None: destroyed), for each pusher its object, the mark of the object when it was made, and
    whether it has a handler. *)
Record stories := mk_stories { ss_of : list (option story); ss_push : list (nat * option nat * bool) }.
Definition story_at (i : nat) (t : stories) : option story := match nth_error (ss_of t) i with Some (Some s) => Some s | _ => None end.
Definition heard (i : nat) (c : gop) (r : aout) (t : stories) : stories :=
  match story_at i t with
  | Some s => mk_stories (set_nth i (Some (mk_story (sy_first s) (sy_born s) (sy_calls s ++ [(c, r)]) (sy_whole s))) (ss_of t)) (ss_push t)
  | None => t
  end.
Definition narrate (t : stories) (p : aop * aout) : stories :=
  match p with
  | (ANew o c rnd ts, _) => mk_stories (ss_of t ++ [Some (mk_story (length (ss_of t)) (o, c, rnd, ts) [] true)]) (ss_push t)
  | (AMove j, _) =>
      match story_at j t with
      | Some s => mk_stories (set_nth j (Some (mk_story (sy_first s) (sy_born s) (sy_calls s) false)) (ss_of t) ++ [Some s]) (ss_push t)
      | None => t
      end
  | (ACall i c, r) => heard i c r t
  | (AMake i h, _) => mk_stories (ss_of t) (ss_push t ++ [(i, match story_at i t with Some s => mark s | None => None end, h)])
  | (APush p x c1 c2, ADead) => t
  | (APush p x c1 c2, r) => match nth_error (ss_push t) p with Some (i, _, h) => heard i (GoPush x h c1 c2) r t | None => t end
  | (ADrop i, _) => mk_stories (set_nth i None (ss_of t)) (ss_push t)
  end.
Definition stories_of (ops : list aop) (outs : list aout) : stories := fold_left narrate (combine ops outs) (mk_stories [] []).
(** The caller of a member function sees the whole answer, the caller of a pusher only what its handler receives. *)
Definition seen (r : aout) (o : sout) : Prop := match r with AAns o' => o' = o | ARecs l => l = out_handler o | _ => False end.
(** The answers in a story are those of an aggregator that is made that way and receives these calls, without any move. *)
Definition as_if_unmoved (ne : nat -> list Z -> list Z) (s : story) : Prop :=
  let '(o, c, rnd, ts) := sy_born s in
  exists g0 outs g, agg_new o c rnd ts = Ok g0 /\ g_run ne g0 (map fst (sy_calls s)) = Ok (outs, g) /\ Forall2 seen (map snd (sy_calls s)) outs.
