(** Examples and counterexamples for the table of parameter values. *)
From Coq Require Import QArith Qcanon Sorted.
From Verif Require Import Base Bytes_Model Ptab_Model Ptab_Spec Ptab_Proofs Ptab_Table Ptab_Thms.
Close Scope Q_scope. Close Scope Qc_scope. Local Open Scope nat_scope.
Notation domain := (list (option (num * num))) (only parsing).
Notation bytes := (list Z) (only parsing).

Definition q (z : Z) : num := Fin (Q2Qc (inject_Z z)).
Definition rng (a b : Z) : option (num * num) := Some (q a, q b).
Definition none6 : domain := repeat None 6.
(** time 0 to 10, 5 to 20 and from 30, all for frequency 0 to 5 *)
Definition dom1 : domain := rng 0 10 :: rng 0 5 :: none6.
Definition dom2 : domain := rng 5 20 :: rng 0 5 :: none6.
Definition dom3 : domain := Some (q 30, Inf) :: rng 0 5 :: none6.

Definition c8 (z : Z) : bytes := z :: repeat 0%Z 7.
Definition mkf (cls : Z) (cs : list bytes) (p : bytes) (r : Z) (d : domain) (i : Z) : funk Z :=
  {| f_polc := true; f_class := cls; f_coeff := cs; f_pert := p; f_weight := c8 1; f_rest := r;
     f_dom := d; f_id := i |}.
(** class 1 is Polc, class 2 derived from it; the default perturbation is [c8 3];
    the rest of the record says which funklet it is *)
Definition const1 (z : Z) (d : domain) (i : Z) : funk Z := mkf 1 [c8 z] (c8 3) 0 d i.
Definition poly7 : funk Z := mkf 1 [c8 5; c8 6] (c8 9) 7 dom2 (-1)%Z.
Definition poly8 : funk Z := mkf 2 [c8 1; c8 2; c8 3] (c8 9) 8 dom1 4%Z.
Definition ex_enc (f : funk Z) : list bytes := [[f_rest f]; [1; 2; 3]%Z].
Definition ex_dec (bs : list bytes) : res (funk Z) :=
  match bs with
  | [[7%Z]; _] => Ok poly7
  | [[8%Z]; _] => Ok poly8
  | _ => Err
  end.
Definition na : bytes := [97; 98]%Z.
Definition nb : bytes := [98]%Z.

Section Any.
Variable as_num : list bool -> num.
Variable as_flags : num -> list bool.
Notation run := (run as_num as_flags Z ex_enc).
Notation getFunklets := (getFunklets Z 1 (c8 3) (c8 1) 0%Z ex_dec).
Notation getFunkletFromDB := (getFunkletFromDB Z 1 (c8 3) (c8 1) 0%Z ex_dec).
Notation save := (save Z ex_enc).
Notation Single := (Single Z).
Notation Composed := (Composed Z).

Lemma const_storable f : f_polc f = true -> (exists c, f_coeff f = [c] /\ length c = 8) ->
  properb (f_dom f) = true -> storable ex_enc ex_dec f.
Proof.
  intros P [c [E L]] D. split; [apply properb_ok, D|]. split; [intros _; exists c; tauto|].
  intros N. exfalso. apply N. split; [exact P|]. rewrite E. cbn. lia.
Qed.
Lemma poly_storable f : properb (f_dom f) = true -> 2 <= length (f_coeff f) -> ex_dec (ex_enc f) = Ok f ->
  storable ex_enc ex_dec f.
Proof.
  intros D L E. split; [apply properb_ok, D|]. split; [intros [_ X]; lia|].
  intros _. split; [exact E|]. split; [discriminate|]. cbn. lia.
Qed.
Ltac stored := let n := fresh in let f := fresh in let I := fresh in
  intros n f I; cbn [In] in I;
  repeat (destruct I as [I|I];
    [first [discriminate I | (let X := fresh in assert (X := f_equal (fun e => match e with Saved _ g => g | _ => f end) I);
       cbn in X; rewrite <- X; clear X I f n;
       first [apply const_storable; [reflexivity|eexists; split; reflexivity|vm_compute; reflexivity]
             |apply poly_storable; [vm_compute; reflexivity|cbn; lia|reflexivity]])]|]);
  destruct I.

(** *** The table over a history *)
Definition h1 : history Z :=
  [Saved na (const1 1 dom1 (-1)); Saved nb poly7; Saved na poly7; Saved nb (const1 2 dom3 (-1)); Reopened;
   Saved na poly8; ErasedAll nb; Saved nb (const1 4 dom1 7); Reopened].
Lemma h1_fine : all_storable ex_enc ex_dec h1 /\ told_apart h1 /\ legal h1.
Proof.
  split; [split|split].
  - unfold h1. stored.
  - vm_compute. reflexivity.
  - apply told_apartb_ok. vm_compute. reflexivity.
  - apply no_erasure_ok. reflexivity.
Qed.
Example ex_domains : domains_of h1 = [dom1; dom2; dom3].
Proof. vm_compute. reflexivity. Qed.
Definition read (h : history Z) n d :=
  bind (run h) (fun t => bind (getFunklets t n d) (fun gs => Ok (map f_coeff gs, map f_id gs))).
(** the polynomials of a replace its constant; they come back as they were *)
Example ex_a : read h1 na dom1 = Ok ([[c8 1; c8 2; c8 3]; [c8 5; c8 6]], [4; -1]%Z).
Proof. vm_compute. reflexivity. Qed.
(** the constant saved for b after all of b was erased, with the number of its domain *)
Example ex_b : read h1 nb dom2 = Ok ([[c8 4]], [0%Z]).
Proof. vm_compute. reflexivity. Qed.
(** dom1 and dom3 have no point in common *)
Example ex_far : read h1 nb dom3 = Ok ([], []).
Proof. vm_compute. reflexivity. Qed.
Example ex_put : exists t', bind (run h1) (fun t => putCoeff Z ex_enc t nb (const1 6 dom3 0)) = Ok (t', 2).
Proof. eexists. vm_compute. reflexivity. Qed.
Example ex_delete : bind (run h1) (fun t => deleteFunklet t nb 1) = Err
  /\ bind (run h1) (fun t => bind (deleteFunklet t nb 0) (fun t' => getFunklets t' nb dom1)) = Ok [].
Proof. split; vm_compute; reflexivity. Qed.

(** *** What is lost *)

(** A Polc with one coefficient does not come back as it was saved: its class,
    its perturbation and the rest of its record are those of a new Polc. *)
Theorem table_constant_refuted :
  exists (h : history Z) f t gs g, h = [Saved na f] /\ all_storable ex_enc ex_dec h
    /\ run h = Ok t /\ getFunklets t na (f_dom f) = Ok gs /\ gs = [g]
    /\ f_coeff g = f_coeff f
    /\ f_class g <> f_class f /\ f_pert g <> f_pert f /\ f_rest g <> f_rest f.
Proof.
  set (f := mkf 2 [c8 4] (c8 7) 5 dom1 (-1)%Z).
  exists [Saved na f], f.
  destruct (run [Saved na f]) as [t| |] eqn:R; [|vm_compute in R; discriminate R..].
  exists t. assert (E : exists g, getFunklets t na (f_dom f) = Ok [g] /\ f_coeff g = [c8 4]
     /\ f_class g = 1%Z /\ f_pert g = c8 3 /\ f_rest g = 0%Z).
  { vm_compute in R. assert (T := f_equal (fun r => match r with Ok x => x | _ => t end) R). cbv beta iota in T.
    rewrite <- T. eexists. split; [vm_compute; reflexivity|]. repeat split; reflexivity. }
  destruct E as [g [Eg [E1 [E2 [E3 E4]]]]]. exists [g], g.
  split; [reflexivity|]. split; [split; [unfold f; stored|vm_compute; reflexivity]|].
  split; [reflexivity|]. split; [exact Eg|]. split; [reflexivity|].
  rewrite E1, E2, E3, E4. split; [reflexivity|]. split; [discriminate|]. split; discriminate.
Qed.

(** Domains that differ by less than 1e-16: two funklets saved one after the
    other for the same name and the same domain are both kept. *)
Definition e16 (z : positive) : num := Fin (Q2Qc (Zpos z # 10000000000000000000)).
Theorem table_near_refuted :
  exists (h : history Z) f g t gs, all_storable ex_enc ex_dec (h ++ [Saved na f; Saved na g]) /\ legal h
    /\ f_dom f = f_dom g /\ run (h ++ [Saved na f; Saved na g]) = Ok t
    /\ getFunklets t na (f_dom f) = Ok gs /\ map f_coeff gs = [f_coeff f; f_coeff g] /\ f_coeff f <> f_coeff g.
Proof.
  set (d0 := Some (q 0, q 1) :: repeat None 7). set (d1 := Some (e16 1500, q 1) :: repeat None 7).
  set (d := Some (e16 750, q 1) :: repeat None 7).
  exists [Saved na (const1 1 d0 (-1)); Saved na (const1 2 d1 (-1))].
  exists (const1 3 d 0), (const1 4 d (-1)).
  destruct (run ([Saved na (const1 1 d0 (-1)); Saved na (const1 2 d1 (-1))] ++
                 [Saved na (const1 3 d 0); Saved na (const1 4 d (-1))])) as [t| |] eqn:R; [|vm_compute in R; discriminate R..].
  exists t. assert (E : exists gs, getFunklets t na d = Ok gs /\ map f_coeff gs = [[c8 3]; [c8 4]]).
  { vm_compute in R. assert (T := f_equal (fun r => match r with Ok x => x | _ => t end) R). cbv beta iota in T.
    rewrite <- T. eexists. split; [vm_compute; reflexivity|]. reflexivity. }
  destruct E as [gs [Eg E1]]. exists gs.
  split; [split; [unfold d, d0, d1; cbn [app]; stored|vm_compute; reflexivity]|].
  split; [apply no_erasure_ok; reflexivity|]. split; [reflexivity|]. split; [reflexivity|].
  split; [exact Eg|]. split; [exact E1|]. discriminate.
Qed.

(** An entry of the file of domains that was cut off, for instance by a crash:
    domains saved later are written behind it and are not found when the table
    is opened once more; what was saved for them appears under a domain for which
    nothing was saved. *)
Theorem table_torn_refuted :
  exists (k : disk) f t,
    (exists t0, run [Saved nb (const1 1 dom1 (-1))] = Ok t0
       /\ k_db k = k_db (t_disk t0)
       /\ k_file k = k_file (t_disk t0) ++ firstn 16 (entry_chunks dom2))
    /\ f_dom f = dom3
    /\ (exists f', save (open_table as_num as_flags k) na (Single f) = Ok (t, Single f'))
    /\ (exists g, getFunklets t na dom3 = Ok [g] /\ f_coeff g = f_coeff f)
    /\ getFunklets (open_table as_num as_flags (t_disk t)) na dom3 = Ok []
    /\ (exists g, getFunklets (open_table as_num as_flags (t_disk t)) na dom2 = Ok [g] /\ f_coeff g = f_coeff f
          /\ f_dom g = dom2).
Proof.
  destruct (run [Saved nb (const1 1 dom1 (-1))]) as [t0| |] eqn:R; [|vm_compute in R; discriminate R..].
  assert (T0 : t0 = {| t_list := [dom1]; t_disk := {| k_file := entry_chunks dom1;
                        k_db := [(makeKey nb 0, c8 1)] |} |}).
  { vm_compute in R. assert (T := f_equal (fun r => match r with Ok x => x | _ => t0 end) R). cbv beta iota in T.
    rewrite <- T. vm_compute. reflexivity. }
  exists {| k_file := entry_chunks dom1 ++ firstn 16 (entry_chunks dom2); k_db := [(makeKey nb 0, c8 1)] |}.
  exists (const1 5 dom3 (-1)).
  exists {| t_list := [dom1; dom3];
            t_disk := {| k_file := (entry_chunks dom1 ++ firstn 16 (entry_chunks dom2)) ++ entry_chunks dom3;
                         k_db := [(makeKey na 1, c8 5); (makeKey nb 0, c8 1)] |} |}.
  split; [exists t0; rewrite T0; split; [reflexivity|split; reflexivity]|].
  split; [reflexivity|].
  split; [eexists; vm_compute; reflexivity|].
  split; [eexists; split; [vm_compute; reflexivity|reflexivity]|].
  split; [vm_compute; reflexivity|].
  eexists. split; [vm_compute; reflexivity|]. split; [reflexivity|vm_compute; reflexivity].
Qed.

(** *** Parameters *)

(** A solvable parameter that saves its value for a domain, and loads for that
    same domain, gets the value of an older domain that overlaps it. *)
Theorem parm_reload_refuted :
  exists (h : history Z) f t t' f', all_storable ex_enc ex_dec (h ++ [Saved na f])
    /\ told_apart (h ++ [Saved na f]) /\ legal h
    /\ run h = Ok t /\ save t na (Single f) = Ok (t', Single f')
    /\ exists g, getFunkletFromDB t' na true false false (f_dom f) = Ok (Some (Single g))
                 /\ f_coeff g <> f_coeff f.
Proof.
  set (h := [Saved na (const1 1 dom1 (-1))]). set (f := const1 2 dom2 (-1)).
  exists h, f.
  destruct (run h) as [t| |] eqn:R; [|vm_compute in R; discriminate R..].
  assert (T0 : t = {| t_list := [dom1]; t_disk := {| k_file := entry_chunks dom1;
                        k_db := [(makeKey na 0, c8 1)] |} |}).
  { vm_compute in R. assert (T := f_equal (fun r => match r with Ok x => x | _ => t end) R). cbv beta iota in T.
    rewrite <- T. vm_compute. reflexivity. }
  exists t. exists {| t_list := [dom1; dom2]; t_disk := {| k_file := entry_chunks dom1 ++ entry_chunks dom2;
                        k_db := [(makeKey na 1, c8 2); (makeKey na 0, c8 1)] |} |}.
  exists (const1 2 dom2 1).
  split; [split; [unfold h, f; cbn [app]; stored|vm_compute; reflexivity]|].
  split; [apply told_apartb_ok; vm_compute; reflexivity|].
  split; [apply no_erasure_ok; reflexivity|]. split; [reflexivity|].
  split; [rewrite T0; vm_compute; reflexivity|].
  eexists. split; [vm_compute; reflexivity|]. discriminate.
Qed.

(** A parameter that loads for a domain that differs from the stored one only
    in its third axis gets a funklet of the stored domain; when it is saved, it
    changes what is stored for that domain, and nothing is stored for its own. *)
Definition dA : domain := rng 0 10 :: rng 0 5 :: rng 0 1 :: repeat None 5.
Definition dB : domain := rng 0 10 :: rng 0 5 :: rng 0 2 :: repeat None 5.
Definition set_coeff (f : funk Z) (cs : list bytes) : funk Z :=
  {| f_polc := f_polc f; f_class := f_class f; f_coeff := cs; f_pert := f_pert f; f_weight := f_weight f;
     f_rest := f_rest f; f_dom := f_dom f; f_id := f_id f |}.
Theorem parm_axis_refuted :
  exists (h : history Z) t g t' g', all_storable ex_enc ex_dec h /\ told_apart h /\ legal h
    /\ run h = Ok t /\ kept h na dA <> None
    /\ getFunkletFromDB t na true false false dB = Ok (Some (Single g)) /\ f_dom g <> dB
    /\ save t na (Single (set_coeff g [c8 9])) = Ok (t', Single g')
    /\ ~ In dB (t_list t')
    /\ exists x y, getFunklets t na dA = Ok [x] /\ getFunklets t' na dA = Ok [y] /\ f_coeff y <> f_coeff x.
Proof.
  set (h := [Saved na (const1 1 dA (-1))]). exists h.
  destruct (run h) as [t| |] eqn:R; [|vm_compute in R; discriminate R..].
  assert (T0 : t = {| t_list := [dA]; t_disk := {| k_file := entry_chunks dA; k_db := [(makeKey na 0, c8 1)] |} |}).
  { vm_compute in R. assert (T := f_equal (fun r => match r with Ok x => x | _ => t end) R). cbv beta iota in T.
    rewrite <- T. vm_compute. reflexivity. }
  exists t, (const1 1 dA 0).
  exists {| t_list := [dA]; t_disk := {| k_file := entry_chunks dA; k_db := [(makeKey na 0, c8 9)] |} |}.
  exists (set_coeff (const1 1 dA 0) [c8 9]).
  split; [split; [unfold h; stored|vm_compute; reflexivity]|].
  split; [apply told_apartb_ok; vm_compute; reflexivity|].
  split; [apply no_erasure_ok; reflexivity|]. split; [reflexivity|].
  split; [vm_compute; discriminate|]. rewrite T0.
  split; [vm_compute; reflexivity|]. split; [vm_compute; discriminate|].
  split; [vm_compute; reflexivity|]. split; [vm_compute; intros [X|[]]; discriminate X|].
  exists (const1 1 dA 0), (set_coeff (const1 1 dA 0) [c8 9]).
  split; [vm_compute; reflexivity|]. split; [vm_compute; reflexivity|]. discriminate.
Qed.

(** Tiles of five in time, saved and loaded for all of their domain *)
Definition tile (k z : Z) : funk Z := const1 z (rng (5 * k) (5 * k + 5) :: rng 0 5 :: none6) (-1).
Definition whole : domain := rng 0 15 :: rng 0 5 :: none6.
Example ex_tiles :
  bind (run [Saved nb poly8]) (fun t => bind (save t na (Composed [tile 1 8; tile 0 7; tile 2 9] whole)) (fun a =>
  bind (getFunkletFromDB (fst a) na false false false whole) (fun o =>
  Ok (match o with Some (Ptab_Model.Composed _ fs _) => (map f_coeff fs, map f_id fs) | _ => ([], []) end))))
  = Ok ([[c8 8]; [c8 7]; [c8 9]], [1; 2; 3]%Z).
Proof. vm_compute. reflexivity. Qed.
(** a solvable parameter that is not tiled gets the first tile only *)
Example ex_tiles_solvable :
  bind (run [Saved nb poly8]) (fun t => bind (save t na (Composed [tile 1 8; tile 0 7; tile 2 9] whole)) (fun a =>
  bind (getFunkletFromDB (fst a) na true false false whole) (fun o =>
  Ok (match o with Some (Ptab_Model.Single _ f) => (f_coeff f, f_id f) | _ => ([], 0%Z) end))))
  = Ok ([c8 8], (-1)%Z).
Proof. vm_compute. reflexivity. Qed.
Example ex_reload :
  bind (run h1) (fun t => bind (save t nb (Single (const1 6 dom3 0))) (fun a =>
  bind (getFunkletFromDB (fst a) nb true false false dom3) (fun o =>
  Ok (match o with Some (Ptab_Model.Single _ f) => (f_coeff f, f_id f) | _ => ([], 0%Z) end))))
  = Ok ([c8 6], 2%Z).
Proof. vm_compute. reflexivity. Qed.
End Any.

Example ex_blocks : unflatten (flatten [[1; 2; 3]; []; [4]]%Z) = Ok [[1; 2; 3]; []; [4]]%Z.
Proof. vm_compute. reflexivity. Qed.
Example ex_damaged : unflatten (enc_u64 2 ++ enc_u64 3 ++ enc_u64 1 ++ [1; 2; 3]%Z) = Err.
Proof. vm_compute. reflexivity. Qed.

Print Assumptions table_constant_refuted.
Print Assumptions table_near_refuted.
Print Assumptions table_torn_refuted.
Print Assumptions parm_reload_refuted.
Print Assumptions parm_axis_refuted.
