(** What a run of a data stream is supposed to look like, in terms of the stream and of
    the log only. *)
From Verif Require Import Base Vis_Model Mux_Model.
Local Open Scope Z_scope.

(** The stream of a dataset falls into snippets: successive tiles with the same sequence
    number *)
Fixpoint snippets (l : list chunk) : list (list chunk) :=
  match l with
  | [] => []
  | c :: l' =>
      match snippets l' with
      | (d :: g) :: gs => if m_seq c =? m_seq d then (c :: d :: g) :: gs else [c] :: (d :: g) :: gs
      | gs => [c] :: gs
      end
  end.

(** The tiles of the baselines between [n] stations *)
Definition between (n : Z) (c : chunk) : bool := (m_ant1 c <? n) && (m_ant2 c <? n).

(** The handlers, or the sinks, of the baseline of a tile *)
Definition for_tile (tab : list (list nat)) (c : chunk) : list nat :=
  nth (Z.to_nat (ifrNumber (m_ant1 c) (m_ant2 c))) tab [].

(** [a..b] are the first and the last row with a time *)
Definition first_last (rows : list bool) (a b : nat) : Prop :=
  nth_error rows a = Some true /\ nth_error rows b = Some true /\
  forall i, nth_error rows i = Some true -> (a <= i <= b)%nat.
(** Cells can be made from the tile *)
Definition startable (E : env) (c : chunk) : Prop :=
  In true (m_rows c) /\ e_cells E c = true.

(** What happens to a snippet: the start child; every tile goes to all handlers of its
    baseline, with the request and with the row range of the first tile; the pre child;
    every sink of the baselines concerned is polled once; the post child.  [K] and [H] are
    the sinks and the handlers by baseline. *)
Definition run_of (E : env) (n : nat) (r : rq) : list action :=
  if e_valid E n then [ARun n r] else [].
Definition begun (E : env) (H : list (list nat)) (r : rq) (g : list chunk) (tr : list action) : Prop :=
  exists c0 g', g = c0 :: g' /\ exists a b, first_last (m_rows c0) a b /\
    tr = run_of E 0 r ++ flat_map (fun c => map (fun h => ATile h r c a b) (for_tile H c)) g.
Definition ended (E : env) (K : list (list nat)) (r : rq) (g : list chunk) (tr : list action) : Prop :=
  exists polls, NoDup polls /\
    (forall i, In i polls <-> exists c, In c g /\ In i (for_tile K c)) /\
    tr = run_of E 1 r ++ map (fun i => APoll i r) polls ++ run_of E 2 r.
(** The snippets of a dataset, with successive requests *)
Inductive processed (E : env) (H K : list (list nat)) (ds : nat)
    : nat -> list (list chunk) -> list action -> Prop :=
| P_nil : forall n, processed E H K ds n [] []
| P_cons : forall n g gs t1 t2 t3,
    begun E H (ds, n) g t1 -> ended E K (ds, n) g t2 ->
    processed E H K ds (S n) gs t3 ->
    processed E H K ds n (g :: gs) (t1 ++ t2 ++ t3).

(** The part of a log that concerns the tree, and the part that goes to the output *)
Definition is_output (a : action) : bool :=
  match a with OHeader | OData _ | OFooter => true | _ => false end.
Definition tree_part (l : list action) : list action := filter (fun a => negb (is_output a)) l.
Definition out_part (l : list action) : list action := filter is_output l.

(** The snippets a limit on their number lets through *)
Definition kept (max : Z) (gs : list (list chunk)) : list (list chunk) :=
  if max <? 0 then gs else firstn (Z.to_nat max) gs.
Definition all_kept (max : Z) (gs : list (list chunk)) : bool :=
  (max <? 0) || (Z.of_nat (length gs) <=? max).

(** The tiles returned by the sinks of a log, in the order of the answers; [pre] is the
    log so far *)
Fixpoint returned (E : env) (pre l : list action) : list nat :=
  match l with
  | [] => []
  | a :: l' =>
      match a with
      | APoll _ _ => match e_child E (pre ++ [a]) with CDone (Some t) => [t] | _ => [] end
      | _ => []
      end ++ returned E (pre ++ [a]) l'
  end.

(** An action was answered by an exception or a fail *)
Definition fails (E : env) (pre : list action) (a : action) : Prop :=
  match a with
  | AHeader _ | ATile _ _ _ _ _ | AFooter _ => e_handler E (pre ++ [a]) = false
  | ARun _ _ | APoll _ _ => e_child E (pre ++ [a]) = CFail
  | _ => False
  end.
Definition clean (E : env) (pre l : list action) : Prop :=
  forall l1 a l2, l = l1 ++ a :: l2 -> ~ fails E (pre ++ l1) a.

(** The order of events in a stream: datasets one after the other, each a header, tiles
    and a footer; other events may come at any place *)
Inductive body : list event -> Prop :=
| B_end : body [EFooter]
| B_data : forall c l, body l -> body (EData c :: l).
Inductive stream : list event -> Prop :=
| S_nil : stream []
| S_ds : forall n b l, body b -> stream l -> stream (EHeader n true :: b ++ l).
Definition wellformed (l : list event) : Prop :=
  let l' := filter (fun e => match e with EOther => false | _ => true end) l in
  stream l' /\ l' <> [].
