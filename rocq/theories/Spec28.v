(** Independent specifications, twenty-eighth part: slots of the factor oracle that hold a transition (C131). *)
(** an entry of next_ other than 0 *)
Definition taken (x : option nat) : bool := match x with Some O => false | _ => true end.
