(** Model of init.py: preconfigured initial states. *)
From Coq Require Export String.
From Verif Require Export Base Model_Grid Model_Time Model_Spectral Model_State Model_Region.

(** motionless, init.py:7-17 *)
Definition motionless {K} (T : sphfam) (g : grid) (time : pyval K) : res (state K) :=
  state_init T g time (Some (g_fcor2 g)) None.

(** np.repeat(v, n) of a 1D array; reshape of a flat array to nr rows of nc *)
Definition np_repeat (v : vec) (n : nat) : vec := concat (map (fun x => repeat x n) v).
Fixpoint np_reshape (nr nc : nat) (v : vec) : mat :=
  match nr with
  | O => []
  | S nr => firstn nc v :: np_reshape nr nc (skipn nc v)
  end.
Definition np_zeros_like (m : mat) : mat := mmap (fun _ => 0) m.

(** zonally_symmetric, init.py:20-47.  Profiles are arrays of any dimension. *)
Definition zonally_symmetric {K} (T : sphfam) (g : grid) (time : pyval K) (u pv : option ndarray) : res (state K) :=
  let is_profile a := match a with A1 x => Nat.eqb (length x) (g_nlat g) | _ => false end in
  let broadcast a := match a with A1 x => np_reshape (g_nlat g) (g_nlon g) (np_repeat x (g_nlon g)) | _ => [] end in
  match u, pv with
  | Some u, None =>
      passert (is_profile u)
        (let u := broadcast u in state_from_wind T g time u (np_zeros_like u))
  | None, Some pv =>
      passert (is_profile pv) (state_init T g time (Some (broadcast pv)) None)
  | _, _ => Err ValueError
  end.

(** solid_body_rotation, init.py:50-63 *)
Definition solid_body_rotation {K} (T : sphfam) (g : grid) (time : pyval K) (amplitude : R) : res (state K) :=
  let u := mmap (fun phi => amplitude * cos phi) (g_phi2 g) in
  state_from_wind T g time u (np_zeros_like u).

(** gaussian_jet, init.py:66-89.  With stdev_lat = 0 the quotient is -inf (and its
    exponential 0) except at the central latitude, where it is NaN. *)
Definition gaussian_jet {K} (T : sphfam) (g : grid) (time : pyval K) (amplitude center_lat stdev_lat : R) : res (state K) :=
  let bell lat :=
    if Req_EM_T stdev_lat 0 then 0
    else amplitude * exp (- (1 / 2) * (lat - center_lat) ^ 2 / stdev_lat ^ 2) in
  if Req_EM_T stdev_lat 0 then
    if existsb (fun lat => Reqb lat center_lat) (g_lat g) then Err NotANumber
    else let u := mmap bell (g_lat2 g) in state_from_wind T g time u (np_zeros_like u)
  else
    let u := mmap bell (g_lat2 g) in
    let u_south := mget u (g_nlat g - 1) 0 in
    let u_north := mget u 0 0 in
    let u := map2 (map2 (fun x lat => x - 1 / 2 * (u_south + u_north) + (u_south - u_north) * lat / 180)) u (g_lat2 g) in
    state_from_wind T g time u (np_zeros_like u).

(** held_1985, init.py:92-112 *)
Definition held_1985 {K} (T : sphfam) (g : grid) (time : pyval K) (A B C : R) : res (state K) :=
  let u := mmap (fun phi => A * cos phi - B * cos phi ^ 3 + C * cos phi ^ 6 * sin phi ^ 2) (g_phi2 g) in
  state_from_wind T g time u (np_zeros_like u).
