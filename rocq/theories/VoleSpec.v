(** Specification vocabulary for the Vector-OLE generator. *)
From Verif Require Import Base ScalarModel ScalarSpec ProcModel ProcSpec RotModel RotSpec GilboaSpec RngModel
  CuckooModel CuckooSpec MpfssModel MpfssSpec VoleModel.
From Coq Require Import QArith Permutation.
Local Open Scope Z_scope.

(** ** What a user does with two connected objects *)

(** A pair of calls: PrecomputeSender(batch_size) on one side and
    PrecomputeReceiver(batch_size[, delta]) on the other, or RunSender(size) and
    RunReceiver(size). *)
Inductive call (S : scalar) :=
| Precompute (batch_size : Z) (delta : option S)
| Run (size : Z).
Arguments Precompute {S}. Arguments Run {S}.

(** What a successful call returns. *)
Inductive answer (S : scalar) :=
| Precomputed
| Sender (u v : list S)
| Receiver (w : list S) (delta : S).
Arguments Precomputed {S}. Arguments Sender {S}. Arguments Receiver {S}.

Section User.
  Variable S : scalar.
  Variable E : setting.

  Definition as_sender (M : machine S) (c : call S) (st : vole S) : proc S (vole S * res (answer S)) :=
    match c with
    | Precompute b _ => pbind (precompute_sender S E M b st) (fun '(st, r) => Ret (st, rmap (fun _ => Precomputed) r))
    | Run n => pbind (run_sender S E M n st) (fun '(st, r) => Ret (st, rmap (fun x => Sender (sr_u x) (sr_v x)) r))
    end.
  Definition as_receiver (M : machine S) (c : call S) (st : vole S) : proc S (vole S * res (answer S)) :=
    match c with
    | Precompute b (Some delta) =>
        pbind (precompute_receiver S E M b delta st) (fun '(st, r) => Ret (st, rmap (fun _ => Precomputed) r))
    | Precompute b None =>
        pbind (precompute_receiver_random S E M b st) (fun '(st, r) => Ret (st, rmap (fun _ => Precomputed) r))
    | Run n => pbind (run_receiver S E M n st) (fun '(st, r) => Ret (st, rmap (fun x => Receiver (rr_w x) (rr_delta x)) r))
    end.

  (** A list of calls on one object: for each, whether this party is the sender.
      After an error the party continues with the next call if [go_on] says so. *)
  Fixpoint calls (M : machine S) (go_on : status -> bool) (l : list (bool * call S)) (st : vole S)
    : proc S (list (res (answer S))) :=
    match l with
    | [] => Ret []
    | (sends, c) :: l =>
        pbind ((if sends : bool then as_sender else as_receiver) M c st) (fun '(st, r) =>
          let continue := pbind (calls M go_on l st) (fun rs => Ret (r :: rs)) in
          match r with
          | Ok _ => continue
          | Err e => if go_on e then continue else Ret [r]
          | UB _ => Ret [r]
          end)
    end.

  (** The whole life of a party: create the object and make the calls. *)
  Definition party (M : machine S) (go_on : status -> bool) (l : list (bool * call S)) : proc S (res (list (res (answer S)))) :=
    pbindr (vole_create S M false) (fun st => pbind (calls M go_on l st) (fun rs => Ret (Ok rs))).

  (** The other party makes the same calls in the opposite roles. *)
  Definition opposite (l : list (bool * call S)) : list (bool * call S) := map (fun '(s, c) => (negb s, c)) l.
End User.

(** Errors that only one party notices: it failed to insert an index during
    cuckoo hashing, or the single-point functions cannot be hashed into the
    scalar type. *)
Definition one_sided : list status :=
  [insertion_failed; invalid_argument "Cannot ensure statistical security with the given modulus"].

(** Undefined behaviour of a random generator (its seed can come from the other
    party), and of a party on its own. *)
Definition rng_ub : list string := ["std::runtime_error"%string; "signed overflow of int64_t"%string].
Definition alone_ub : list string := rng_ub ++ ["endless sampling"%string].
Definition local_ub : list string :=
  rng_ub ++ ["endless sampling"%string; "Eigen: negative size"%string].

(** Answers of the sender and of the receiver to the same call: vectors of the
    requested length with w = u delta + v, or the same error. *)
Definition agree_on (S : scalar) (c : call S) (s r : res (answer S)) : Prop :=
  match s, r with
  | Ok Precomputed, Ok Precomputed => exists n d, c = Precompute n d
  | Ok (Sender u v), Ok (Receiver w delta) =>
      c = Run (zlen w) /\ vole_correlation S delta u v w
  | Err e, Err e' => e = e'
  | UB x, UB x' => x = x' /\ In x local_ub
  | _, _ => False
  end.

(** Whether a party makes the next call after an answer. *)
Definition continues {S} (go_on : status -> bool) (r : res (answer S)) : bool :=
  match r with Ok _ => true | Err e => go_on e | UB _ => false end.

(** The answers of two parties to the calls [l] (as in [calls]) of the first. *)
Inductive agree (S : scalar) (go_on : status -> bool) :
  list (bool * call S) -> list (res (answer S)) -> list (res (answer S)) -> Prop :=
| agree_end : agree S go_on [] [] []
| agree_next : forall (sends : bool) c l a b ra rb,
    (if sends then agree_on S c a b else agree_on S c b a) -> continues go_on a = true ->
    agree S go_on l ra rb -> agree S go_on ((sends, c) :: l) (a :: ra) (b :: rb)
| agree_stop : forall (sends : bool) c l a b,
    (if sends then agree_on S c a b else agree_on S c b a) -> continues go_on a = false ->
    agree S go_on ((sends, c) :: l) [a] [b].

(** The answers of a party that failed alone. *)
Definition ends_badly {S} (rs : list (res (answer S))) : Prop :=
  exists l r, rs = l ++ [r] /\ match r with Ok _ => False | Err e => In e one_sided | UB w => In w local_ub end.

(** The process waits for a message of the other party. *)
Definition waiting {T R} (p : proc T R) : Prop :=
  (exists k, p = Recv k) \/ (exists cot choices k, p = OtRecv cot choices k).

(** How a session of two parties with the calls [l] of the first ends: all
    messages were read, and both parties have finished and agree, or one failed
    alone and the other waits for it. *)
Definition session_end S go_on (l : list (bool * call S))
    (c : config S (res (list (res (answer S)))) (res (list (res (answer S))))) : Prop :=
  c_ab c = [] /\ c_ba c = [] /\
  ((exists la lb, c_a c = Ret (Ok la) /\ c_b c = Ret (Ok lb) /\ agree S go_on l la lb) \/
   (exists la, c_a c = Ret (Ok la) /\ ends_badly la /\ waiting (c_b c)) \/
   (exists lb, c_b c = Ret (Ok lb) /\ ends_badly lb /\ waiting (c_a c))).

(** Calls as they should be: all sizes are positive, and a Run follows a call in
    the same roles ([before]: those of the call before, if any), so that the
    parties precompute again when they have changed their roles. *)
Fixpoint orderly {S : scalar} (before : option bool) (l : list (bool * call S)) : Prop :=
  match l with
  | [] => True
  | (sends, Precompute n _) :: l => 1 <= n /\ orderly (Some sends) l
  | (sends, Run n) :: l => 1 <= n /\ (before = None \/ before = Some sends) /\ orderly (Some sends) l
  end.

(** Answers without errors, unless a random generator was used up. *)
Definition no_errors {S} (rs : list (res (answer S))) : Prop :=
  Forall (fun r => match r with Ok _ => True | Err _ => False | UB w => In w rng_ub end) rs.

(** All calls succeeded, up to one in which the party was the sender and failed:
    it could not insert an index during cuckoo hashing, its random generator was
    used up, or it found no new random indices. *)
Definition sender_fails {S} (l : list (bool * call S)) (rs : list (res (answer S))) : Prop :=
  exists l1 c l2 rs1 r, l = l1 ++ (true, c) :: l2 /\ rs = rs1 ++ [r] /\ zlen rs1 = zlen l1 /\
    Forall (fun r => exists x, r = Ok x) rs1 /\ (r = Err insertion_failed \/ exists w, r = UB w /\ In w alone_ub).

(** How a session of orderly calls can end. *)
Definition good_end S go_on (l : list (bool * call S))
    (c : config S (res (list (res (answer S)))) (res (list (res (answer S))))) : Prop :=
  c_ab c = [] /\ c_ba c = [] /\
  ((exists la lb, c_a c = Ret (Ok la) /\ c_b c = Ret (Ok lb) /\ agree S go_on l la lb /\ no_errors la /\ no_errors lb) \/
   (exists la, c_a c = Ret (Ok la) /\ sender_fails l la /\ waiting (c_b c)) \/
   (exists lb, c_b c = Ret (Ok lb) /\ sender_fails (opposite S l) lb /\ waiting (c_a c))).

(** ** Conditions *)

(** [drawn g g']: [g'] is [g] after some calls of rng(). *)
Inductive drawn aes : rng -> rng -> Prop :=
| drawn_none : forall g, drawn aes g g
| drawn_next : forall g g1 x g2, rng_next aes g = Ok (g1, Value x) -> drawn aes g1 g2 -> drawn aes g g2.

(** [draws g l g']: successive calls of rng() return [l]; [picks n g l g']:
    successive draws from std::uniform_int_distribution<int>(0, n - 1) give [l]. *)
Inductive draws aes : rng -> list N -> rng -> Prop :=
| draws_none : forall g, draws aes g [] g
| draws_next : forall g g1 x l g2, rng_next aes g = Ok (g1, Value x) -> draws aes g1 l g2 -> draws aes g (x :: l) g2.
Inductive picks (uniform : Z -> rng -> res (rng * Z)) n : rng -> list Z -> rng -> Prop :=
| picks_none : forall g, picks uniform n g [] g
| picks_next : forall g g1 i l g2, uniform n g = Ok (g1, i) -> picks uniform n g1 l g2 -> picks uniform n g (i :: l) g2.

(** A generator that was created and perhaps used: its buffer has at least two
    words, all of 64 bits. *)
Definition usable (g : rng) : Prop :=
  2 <= zlen (r_buffer g) /\ 0 <= r_elements_used g /\ Forall (fun w => w < 2^64)%N (r_buffer g).

(** The parameters make sense: sizes of the levels grow and fit into the
    integer types, and the statistical security is low enough for creating
    buckets. *)
Record good_setting (S : scalar) (E : setting) : Prop := {
  gs_levels : 1 <= zlen (p_seed_size (e_parameters E));
  gs_outputs : zlen (p_output_size (e_parameters E)) = zlen (p_seed_size (e_parameters E));
  gs_noises : zlen (p_num_noise (e_parameters E)) = zlen (p_seed_size (e_parameters E));
  gs_seeds : Forall (fun n => 1 <= n) (p_seed_size (e_parameters E));
  gs_distinct : NoDup (p_seed_size (e_parameters E));
  gs_noise : Forall (fun n => 1 <= n <= e_expansion3 E n) (p_num_noise (e_parameters E));
  gs_room : forall i, 0 <= i < zlen (p_seed_size (e_parameters E)) ->
    znth 0 (p_seed_size (e_parameters E)) i + e_expansion3 E (znth 0 (p_num_noise (e_parameters E)) i) <
    last (p_output_size (e_parameters E)) 0;
  gs_grow : forall i, 0 <= i < zlen (p_seed_size (e_parameters E)) - 1 ->
    znth 0 (p_seed_size (e_parameters E)) i + e_expansion3 E (znth 0 (p_num_noise (e_parameters E)) i) <
    znth 0 (p_seed_size (e_parameters E)) (i + 1) + e_expansion3 E (znth 0 (p_num_noise (e_parameters E)) (i + 1));
  gs_last : 3 * last (p_output_size (e_parameters E)) 0 < 2^31;
  gs_buckets : forall N n, 0 <= N <= last (p_output_size (e_parameters E)) 0 -> In n (p_num_noise (e_parameters E)) ->
    e_too_many_bits E N (e_expansion3 E n) = false;
  gs_clog : forall s, 0 <= s <= 3 * last (p_output_size (e_parameters E)) 0 -> supported_size (e_clog E) s;
  gs_expansions : forall n, e_expansion3 E n < 2^63 /\ e_expansion2 E n < 2^63;
  gs_size : s_size S <= 16;
  gs_first : transfers (s_size S) (znth 0 (p_seed_size (e_parameters E)) 0 +
    e_expansion3 E (znth 0 (p_num_noise (e_parameters E)) 0)) < 2^31;
  gs_uniform : forall n g, 1 <= n -> usable g ->
    match e_uniform E n g with
    | Ok (g', i) => 0 <= i < n /\ drawn (e_aes E) g g'
    | Err _ => False
    | UB w => In w rng_ub
    end
}.

(** The machine's library functions do what they are documented to do. *)
Record good_machine (S : scalar) (M : machine S) : Prop := {
  gm_split : forall n, 0 <= n -> division n (c_split M n);
  gm_uniform64 : forall n g, 1 <= n -> usable g ->
    match c_uniform64 M n g with Ok (g', i) => 0 <= i < n /\ usable g' | Err _ => False | UB w => In w rng_ub end;
  gm_order : forall x l, Permutation (c_order M x l) l
}.

(** The code generator and the single-point functions of all sizes that occur can
    be hashed into the scalar type with the given statistical security. *)
Definition secure (S : scalar) (E : setting) : Prop :=
  forall n, 1 <= n <= last (p_output_size (e_parameters E)) 0 ->
  s_can_hash S (security_per_leaf (e_K E * 3) (p_nonzeros (e_parameters E) * n)) 128 = true /\
  s_can_hash S (security_per_leaf (e_K E * 3 * 2) (3 * n)) 128 = true.

(** Two ends of one channel. *)
Definition connected {S} (A B : machine S) : Prop :=
  c_peer_id A = c_id B /\ c_peer_id B = c_id A /\ c_id A <> c_id B.

(** ** One object with an arbitrary other party *)

(** [possible p r]: [p] can return [r], whatever the other party sends and
    whatever [p] obtains from oblivious transfers and draws at random. *)
Inductive possible {T R} : proc T R -> R -> Prop :=
| possible_ret : forall r, possible (Ret r) r
| possible_send : forall m k r, possible k r -> possible (Send m k) r
| possible_recv : forall k m r, possible (k m) r -> possible (Recv k) r
| possible_ot : forall cot choices k x r, possible (k x) r -> possible (OtRecv cot choices k) r
| possible_rand : forall k x t r, possible (k x t) r -> possible (Rand k) r.

(** An object as returned by DistributedVectorOLE::Create. *)
Definition created S (M : machine S) (st : vole S) : Prop := possible (vole_create S M false) (Ok st).

(** [history M st l st']: starting from [st], the calls [l] (as in [calls], with
    their results) can lead to [st'], whatever the errors, as long as the
    behaviour is defined. *)
Inductive history S E (M : machine S) : vole S -> list (bool * call S * res (answer S)) -> vole S -> Prop :=
| history_nil : forall st, history S E M st [] st
| history_snoc : forall st l st1 sends c r st2,
    history S E M st l st1 ->
    possible ((if sends : bool then as_sender S E M c else as_receiver S E M c) st1) (st2, r) ->
    (forall w, r <> UB w) ->
    history S E M st (l ++ [(sends, c, r)]) st2.

(** Number of elements of a list that pass a test. *)
Definition count {A} (p : A -> bool) (l : list A) : Z := zlen (filter p l).

(** What RunSender and RunReceiver returned during a history: the pairs (u, v)
    and the elements of w. *)
Definition sender_outputs {S} (l : list (bool * call S * res (answer S))) : list (S * S) :=
  List.concat (map (fun '(_, _, r) => match r with Ok (Sender u v) => combine u v | _ => [] end) l).
Definition receiver_outputs {S} (l : list (bool * call S * res (answer S))) : list S :=
  List.concat (map (fun '(_, _, r) => match r with Ok (Receiver w _) => w | _ => [] end) l).

(** Number of expansions needed for [size] elements of which [cached] exist. *)
Definition expansions (size cached batch : Z) : Z := Z.max 0 ((size - cached + batch - 1) / batch).

(** A successful call, and a call that is no precomputation as receiver. *)
Definition succeeded {S} (e : bool * call S * res (answer S)) : Prop := exists x, snd e = Ok x.
Definition keeps_delta {S} (e : bool * call S * res (answer S)) : Prop :=
  match fst e with
  | (false, Precompute b _) => b < 1
  | _ => True
  end.

(** Calls of RunSender and RunReceiver with their results. *)
Definition sender_run {S} (e : bool * call S * res (answer S)) : Prop := exists n r, e = (true, Run n, r).
Definition receiver_run {S} (e : bool * call S * res (answer S)) : Prop := exists n r, e = (false, Run n, r).

(** [precomputes sends b l e]: after the calls [l], the call [e] precomputed
    successfully for batches of [b], either explicitly or, when nothing was
    called before, because Run(b) does so implicitly. *)
Definition precomputes {S} (sends : bool) b (l : list (bool * call S * res (answer S))) (e : bool * call S * res (answer S)) : Prop :=
  exists c x, e = (sends, c, Ok x) /\ ((exists d, c = Precompute b d) \/ c = Run b /\ l = []).

(** ** Code generator *)

(** A sparse column as the random generator should leave it: between 1 and
    [nonzeros] entries, in different rows out of [rows]. *)
Definition good_column {S : scalar} (rows nonzeros : Z) (column : list (Z * S)) : Prop :=
  1 <= zlen column <= nonzeros /\ NoDup (map fst column) /\ Forall (fun '(row, _) => 0 <= row < rows) column.

(** Entry of a sparse column in a row, if there is one. *)
Definition entry_at {S : scalar} (column : list (Z * S)) (row : Z) : option S :=
  option_map snd (find (fun e => fst e =? row) column).

(** A life of a party as in [party], as long as all calls succeed; it returns the
    object. *)
Fixpoint go_through S E (M : machine S) (l : list (bool * call S)) (st : vole S) : proc S (res (vole S)) :=
  match l with
  | [] => Ret (Ok st)
  | (sends, c) :: l =>
      pbind ((if sends : bool then as_sender S E else as_receiver S E) M c st) (fun '(st, r) =>
        match r with Ok _ => go_through S E M l st | Err e => Ret (Err e) | UB w => Ret (UB w) end)
  end.
Definition life S E (M : machine S) (l : list (bool * call S)) : proc S (res (vole S)) :=
  pbindr (vole_create S M false) (go_through S E M l).

(** The same setting with the other evaluation order of MakeUint128(rng(), rng()). *)
Definition other_order (E : setting) : setting :=
  Setting (e_parameters E) (e_aes E) (e_clog E) (e_K E) (e_too_many_bits E) (e_expansion3 E) (e_expansion2 E) (e_uniform E) (negb (e_high_first E)).
