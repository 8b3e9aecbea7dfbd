(** The configuration files in /repo, byte for byte, and the data files of the small models. *)
From Coq Require Import String List Ascii.
From Verif Require Import Bytes.
Import ListNotations.
Open Scope string_scope.

(** /repo/models/regression/input.ini, also /repo/input.ini *)
Definition ini_regression_text : string :=
"/* we use ""para_name""+"":"" to search input parameters. */
/* NOTE: the ""para_name"" str should no appear in comments */

# setting the chain grid
N_iter:                 400000
# NOTE: N-beta == n-ranks since we set n-ranks based on N-beta, should at least be 2
N_beta:	                4
Beta_Values:            0.001, 0.01, 0.1, 1

# tune the temperature or not
Tune_Ladder:            1
N_stopTuneLadder:       300000
# ladder tuning parameters
# scale parameters of ladder tuning
scale_tune_ladder:      0.2
# in case zero swap ar occurs
zero_stretch:           0.1

#

# test case, y=ax+b+noise(0,1)
N_parm:     	        3  
#
# set total N-iteration in a stack of batches
n_iter_a_stack:         5000
# number of iteration in a batch before judging should a swap be taken
n_iter_a_batch_base:    20
# random +/- range of n-iter-a-batch-base (must < n-iter-a-batch-base)
n_iter_a_batch_rand:    5
# Number of swaping propose will be tested
N_swap:                 1
# neighbor swap (0) or random swap (1)  
Swapmode:               0

# tuning the proposals 
# stop the tuning after N-stoptune
N_stoptune:             400000
# begin the tuning after N-stoptune
N_begintune:            300000
#
# the N-iteration in tuning sigma_prop
n_iter_in_tune:         1000
# the lower boundary ok accept rate  
ar_ok_lower:            0.10
# the upper boundary ok accept rate  
ar_ok_upper:            0.45
# the best ar
ar_best:                0.23
# the maximum diff for an acceptable ar
ar_accept_diff:         0.1
#
sigma_scale_half_ratio: 20
#

# set the range of sigma (check the set_sigma_range function in readin.c)
sigma_scale_min:        0.0000000005
sigma_scale_max:        0.2
# reset the sigma in the range if out of the min/max boundary
sigma_jumpin_ratio:     300

# save the chain starting from (burning)
i_save_begin:           100000

# initial random seed(rolling in mpi), set it <= 0 to use system time 
init_rand_seed:         20 
# ratio of the init gaussian_proposal_sigma to the allowed prior range
init_gp_ratio:          0.1


# prior 
a_min:              -20
a_max:              20
b_min:              -50
b_max:              50
d_min:              0.01
d_max:              30


# file name of output
Fout_Len: 	    100
FoutPre: 	    chain
FoutSuf: 	    .dat
results_dir: 	    results082900 


# about the datafile 
# set delimiter as ""blank"" if data is seperated as "" ""
Data_file:           xy.dat
ndim_data:           2
Delimiter:           blank           




".
Definition ini_regression : bytes := lit ini_regression_text.

(** /repo/models/curved_likelihood/input.ini *)
Definition ini_curved_text : string :=
"/* we use ""para_name""+"":"" to search input parameters. */
/* NOTE: the ""para_name"" str should no appear in comments */

# setting the chain grid
N_iter:                 1000000
# NOTE: N-beta == n-ranks since we set n-ranks based on N-beta, should at least be 2
N_beta:	                4
Beta_Values:            0.03, 0.1, 0.3, 1.0
# test case, y=ax+b+noise(0,1)
N_parm:     	        2  

# tune the temperature or not
Tune_Ladder:            0
N_stopTuneLadder:       300000
# ladder tuning parameters
# scale parameters of ladder tuning
scale_tune_ladder:      0.7
                        0.8
# in case zero swap ar occurs
zero_stretch:           0.2
                        0.3

#

# set total N-iteration in a stack of batches
n_iter_a_stack:         5000
# number of iteration in a batch before judging should a swap be taken
n_iter_a_batch_base:    20
# random +/- range of n-iter-a-batch-base (must < n-iter-a-batch-base)
n_iter_a_batch_rand:    5
# Number of swaping propose will be tested
N_swap:                 1
# neighbor swap (0) or random swap (1)  
Swapmode:               0

# stop the tuning after N-stoptune
N_stoptune:             0
# begin the tuning after N-stoptune
N_begintune:            100000000
#
# the N-iteration in tuning sigma_prop
n_iter_in_tune:         1000
# the lower boundary ok accept rate  
ar_ok_lower:            0.10
# the upper boundary ok accept rate  
ar_ok_upper:            0.45
# the best ar
ar_best:                0.23
# the maximum diff for an acceptable ar
ar_accept_diff:         0.1
#
sigma_scale_half_ratio: 200
#
# set the range of sigma (check the set_sigma_range function in readin.c)
sigma_scale_min:        0.0000000005
sigma_scale_max:        0.2
# reset the sigma in the range if out of the min/max boundary
sigma_jumpin_ratio:     300

# save the chain starting from (burning)
i_save_begin:           10000

# initial random seed(rolling in mpi), set it <= 0 to use system time 
init_rand_seed:         20 
# ratio of the init gaussian_proposal_sigma to the allowed prior range
init_gp_ratio:          0.1


# prior 
a_min:              -10
a_max:              10
b_min:              -10
b_max:              10


# file name of output
Fout_Len: 	    100
FoutPre: 	    chain
FoutSuf: 	    .dat
results_dir: 	    results082900 


# about the datafile 
# set delimiter as ""blank"" if data is seperated as "" ""
Data_file:           xy.dat
ndim_data:           2
Delimiter:           blank           

".
Definition ini_curved : bytes := lit ini_curved_text.

(** /repo/models/eggbox/input.ini *)
Definition ini_eggbox_text : string :=
"/* we use ""para_name""+"":"" to search input parameters. */
/* NOTE: the ""para_name"" str should no appear in comments */

# setting the chain grid
N_iter:                 405000
# NOTE: N-beta == n-ranks since we set n-ranks based on N-beta, should at least be 2
N_beta:	                15
Beta_Values:            1.0, 1.0, 1.0, 1.0, 1.0, 1.0, 1.0, 1.0, 1.0, 1.0, 1.0, 1.0, 1.0, 1.0, 1.0
#Beta   Values:            0.001, 0.01, 0.1, 1.0


# tune the temperature or not
Tune_Ladder:            0
N_stopTuneLadder:       300000
# ladder tuning parameters
# scale parameters of ladder tuning
scale_tune_ladder:      0.2
# in case zero swap ar occurs
zero_stretch:           0.1

# test case, y=ax+b+noise(0,1)
N_parm:     	        2  
#
# set total N-iteration in a stack of batches
n_iter_a_stack:         500
# 5000
# number of iteration in a batch before judging should a swap be taken
n_iter_a_batch_base:    2000
# 20
# random +/- range of n-iter-a-batch-base (must < n-iter-a-batch-base)
n_iter_a_batch_rand:    5
# Number of swaping propose will be tested
N_swap:                 0
# 1
# neighbor swap (0) or random swap (1)  
Swapmode:               1

# stop the tuning after N-stoptune
N_stoptune:             0
N_begintune:            100000000000
# the N-iteration in tuning sigma_prop
n_iter_in_tune:         1000
# the lower boundary ok accept rate  
ar_ok_lower:            0.10
# the upper boundary ok accept rate  
ar_ok_upper:            0.45
# the best ar
ar_best:                0.23
# the maximum diff for an acceptable ar
ar_accept_diff:         0.1
#
sigma_scale_half_ratio: 200
#
# set the range of sigma (check the set_sigma_range function in readin.c)
sigma_scale_min:        0.0000000005
sigma_scale_max:        0.2
# reset the sigma in the range if out of the min/max boundary
sigma_jumpin_ratio:     300

# save the chain starting from (burning)
i_save_begin:           5500

# initial random seed(rolling in mpi), set it <= 0 to use system time 
init_rand_seed:         20 
# ratio of the init gaussian_proposal_sigma to the allowed prior range
init_gp_ratio:          0.1


# prior 
a_min:              0
a_max:              50
b_min:              0
b_max:              50


# file name of output
Fout_Len: 	    100
FoutPre: 	    chain
FoutSuf: 	    .dat
results_dir: 	    results


# about the datafile 
# set delimiter as ""blank"" if data is seperated as "" ""
Data_file:           xy.dat
ndim_data:           2
Delimiter:           blank           





".
Definition ini_eggbox : bytes := lit ini_eggbox_text.

(** /repo/models/multi_gaussian/input.ini *)
Definition ini_multi_gaussian_text : string :=
"/* we use ""para_name""+"":"" to search input parameters. */
/* NOTE: the ""para_name"" str should no appear in comments */

# setting the chain grid
N_iter:                 5000000
# NOTE: N-beta == n-ranks since we set n-ranks based on N-beta, should at least be 2
N_beta:	                5
Beta_Values:            0.0001, 0.001, 0.01, 0.1, 1

# tune the temperature or not
Tune_Ladder:            1
N_stopTuneLadder:       300000
# ladder tuning parameters
# scale parameters of ladder tuning
scale_tune_ladder:      0.8
# in case zero swap ar occurs
zero_stretch:           0.3

#

# test case, y=ax+b+noise(0,1)
N_parm:     	        2  
#
# set total N-iteration in a stack of batches
n_iter_a_stack:         5000
# number of iteration in a batch before judging should a swap be taken
n_iter_a_batch_base:    20
# random +/- range of n-iter-a-batch-base (must < n-iter-a-batch-base)
n_iter_a_batch_rand:    5
# Number of swaping propose will be tested
N_swap:                 1
# neighbor swap (0) or random swap (1)  
Swapmode:               0

# tuning the proposals 
# stop the tuning after N-stoptune
N_stoptune:             500000
# begin the tuning after N-stoptune
N_begintune:            300000
#
# the N-iteration in tuning sigma_prop
n_iter_in_tune:         2000
# the lower boundary ok accept rate  
ar_ok_lower:            0.10
# the upper boundary ok accept rate  
ar_ok_upper:            0.45
# the best ar
ar_best:                0.23
# the maximum diff for an acceptable ar
ar_accept_diff:         0.1
#
sigma_scale_half_ratio: 20
#

# set the range of sigma (check the set_sigma_range function in readin.c)
sigma_scale_min:        0.0000000001
sigma_scale_max:        0.2
# reset the sigma in the range if out of the min/max boundary
sigma_jumpin_ratio:     300

# save the chain starting from (burning)
i_save_begin:           500000

# initial random seed(rolling in mpi), set it <= 0 to use system time 
init_rand_seed:         20 
# ratio of the init gaussian_proposal_sigma to the allowed prior range
init_gp_ratio:          0.1


# prior 
a_min:              -30
a_max:              30
b_min:              -30
b_max:              30


# file name of output
Fout_Len: 	    100
FoutPre: 	    chain
FoutSuf: 	    .dat
results_dir: 	    results082900 


# about the datafile 
# set delimiter as ""blank"" if data is seperated as "" ""
Data_file:           xy.dat
ndim_data:           2
Delimiter:           blank           




".
Definition ini_multi_gaussian : bytes := lit ini_multi_gaussian_text.

(** /repo/models/rastrigin/input.ini_T_L_T_B.eg *)
Definition ini_rastrigin_TLTB_text : string :=
"/* we use ""para_name""+"":"" to search input parameters. */
/* NOTE: the ""para_name"" str should no appear in comments */

# setting the chain grid
N_iter:                 2000000
# NOTE: N-beta == n-ranks since we set n-ranks based on N-beta, should at least be 2
N_beta:	                4
Beta_Values:            0.001, 0.002, 0.999, 1
#:            0.001, 0.002, 0.003, 1

# tune the temperature or not
Tune_Ladder:            1
N_stopTuneLadder:       300000
# ladder tuning parameters
# scale parameters of ladder tuning
scale_tune_ladder:      0.7
                        0.8
# in case zero swap ar occurs
zero_stretch:           0.2
                        0.3

#

# test case
N_parm:     	        5  
#
# set total N-iteration in a stack of batches
n_iter_a_stack:         5000
# number of iteration in a batch before judging should a swap be taken
n_iter_a_batch_base:    20
# random +/- range of n-iter-a-batch-base (must < n-iter-a-batch-base)
n_iter_a_batch_rand:    5
# Number of swaping propose will be tested
N_swap:                 1
# neighbor swap (0) or random swap (1)  
Swapmode:               0

# tuning the proposals 
# stop the tuning after N-stoptune
N_stoptune:             1000000
# begin the tuning after N-stoptune
N_begintune:            300000
#
# the N-iteration in tuning sigma_prop
n_iter_in_tune:         3000
# the lower boundary ok accept rate  
ar_ok_lower:            0.10
# the upper boundary ok accept rate  
ar_ok_upper:            0.45
# the best ar
ar_best:                0.23
# the maximum diff for an acceptable ar
ar_accept_diff:         0.1
#
sigma_scale_half_ratio: 20
#

# set the range of sigma (check the set_sigma_range function in readin.c)
sigma_scale_min:        0.0000000005
sigma_scale_max:        0.2
# reset the sigma in the range if out of the min/max boundary
sigma_jumpin_ratio:     300

# save the chain starting from (burning)
i_save_begin:           0

# initial random seed(rolling in mpi), set it <= 0 to use system time 
init_rand_seed:         20 
# ratio of the init gaussian_proposal_sigma to the allowed prior range
init_gp_ratio:          0.001


# prior 
a_min:              -5.12
a_max:              5.12
b_min:              -5.120
b_max:              5.120
c_min:              -5.120
c_max:              5.120
d_min:              -5.120
d_max:              5.120
f_min:              -5.120
f_max:              5.120


# file name of output
Fout_Len: 	    100
FoutPre: 	    chain
FoutSuf: 	    .dat
results_dir: 	    results082900 


# about the datafile 
# set delimiter as ""blank"" if data is seperated as "" ""
Data_file:           xy.dat
ndim_data:           2
Delimiter:           blank           




".
Definition ini_rastrigin_TLTB : bytes := lit ini_rastrigin_TLTB_text.

(** /repo/models/rastrigin/input.ini_Tune_Ladder_Tune_Proporal, also /repo/input.ini.latest *)
Definition ini_rastrigin_text : string :=
"/* we use ""para_name""+"":"" to search input parameters. */
/* NOTE: the ""para_name"" str should no appear in comments */

# setting the chain grid
N_iter:                 2000000
# NOTE: N-beta == n-ranks since we set n-ranks based on N-beta, should at least be 2
N_beta:	                4
Beta_Values:            0.001, 0.002, 0.003, 1
#:            0.001, 0.002, 0.003, 1

# tune the temperature or not
Tune_Ladder:            1
N_stopTuneLadder:       300000
# ladder tuning parameters
# scale parameters of ladder tuning
scale_tune_ladder:      0.9
# in case zero swap ar occurs
zero_stretch:           0.3

#

# test case
N_parm:     	        5  
#
# set total N-iteration in a stack of batches
n_iter_a_stack:         5000
# number of iteration in a batch before judging should a swap be taken
n_iter_a_batch_base:    20
# random +/- range of n-iter-a-batch-base (must < n-iter-a-batch-base)
n_iter_a_batch_rand:    5
# Number of swaping propose will be tested
N_swap:                 1
# neighbor swap (0) or random swap (1)  
Swapmode:               0

# tuning the proposals 
# stop the tuning after N-stoptune
N_stoptune:             1000000
# begin the tuning after N-stoptune
N_begintune:            300000
#
# the N-iteration in tuning sigma_prop
n_iter_in_tune:         3000
# the lower boundary ok accept rate  
ar_ok_lower:            0.10
# the upper boundary ok accept rate  
ar_ok_upper:            0.45
# the best ar
ar_best:                0.23
# the maximum diff for an acceptable ar
ar_accept_diff:         0.1
#
sigma_scale_half_ratio: 20
#

# set the range of sigma (check the set_sigma_range function in readin.c)
sigma_scale_min:        0.0000000005
sigma_scale_max:        0.2
# reset the sigma in the range if out of the min/max boundary
sigma_jumpin_ratio:     300

# save the chain starting from (burning)
i_save_begin:           0

# initial random seed(rolling in mpi), set it <= 0 to use system time 
init_rand_seed:         20 
# ratio of the init gaussian_proposal_sigma to the allowed prior range
init_gp_ratio:          0.001


# prior 
a_min:              -5.12
a_max:              5.12
b_min:              -5.120
b_max:              5.120
c_min:              -5.120
c_max:              5.120
d_min:              -5.120
d_max:              5.120
f_min:              -5.120
f_max:              5.120


# file name of output
Fout_Len: 	    100
FoutPre: 	    chain
FoutSuf: 	    .dat
results_dir: 	    results082900 


# about the datafile 
# set delimiter as ""blank"" if data is seperated as "" ""
Data_file:           xy.dat
ndim_data:           2
Delimiter:           blank           




".
Definition ini_rastrigin : bytes := lit ini_rastrigin_text.

(** /repo/models/rastrigin/input.ini_noTune_Ladder_Tune_Proporal *)
Definition ini_rastrigin_noL_text : string :=
"/* we use ""para_name""+"":"" to search input parameters. */
/* NOTE: the ""para_name"" str should no appear in comments */

# setting the chain grid
N_iter:                 2000000
# NOTE: N-beta == n-ranks since we set n-ranks based on N-beta, should at least be 2
N_beta:	                4
Beta_Values:            0.001, 0.002, 0.003, 1
#:            0.001, 0.002, 0.003, 1

# tune the temperature or not
Tune_Ladder:            0
N_stopTuneLadder:       300000
# ladder tuning parameters
# scale parameters of ladder tuning
scale_tune_ladder:      0.9
# in case zero swap ar occurs
zero_stretch:           0.3

#

# test case
N_parm:     	        5  
#
# set total N-iteration in a stack of batches
n_iter_a_stack:         5000
# number of iteration in a batch before judging should a swap be taken
n_iter_a_batch_base:    20
# random +/- range of n-iter-a-batch-base (must < n-iter-a-batch-base)
n_iter_a_batch_rand:    5
# Number of swaping propose will be tested
N_swap:                 1
# neighbor swap (0) or random swap (1)  
Swapmode:               0

# tuning the proposals 
# stop the tuning after N-stoptune
N_stoptune:             1000000
# begin the tuning after N-stoptune
N_begintune:            300000
#
# the N-iteration in tuning sigma_prop
n_iter_in_tune:         3000
# the lower boundary ok accept rate  
ar_ok_lower:            0.10
# the upper boundary ok accept rate  
ar_ok_upper:            0.45
# the best ar
ar_best:                0.23
# the maximum diff for an acceptable ar
ar_accept_diff:         0.1
#
sigma_scale_half_ratio: 20
#

# set the range of sigma (check the set_sigma_range function in readin.c)
sigma_scale_min:        0.0000000005
sigma_scale_max:        0.2
# reset the sigma in the range if out of the min/max boundary
sigma_jumpin_ratio:     300

# save the chain starting from (burning)
i_save_begin:           0

# initial random seed(rolling in mpi), set it <= 0 to use system time 
init_rand_seed:         20 
# ratio of the init gaussian_proposal_sigma to the allowed prior range
init_gp_ratio:          0.001


# prior 
a_min:              -5.12
a_max:              5.12
b_min:              -5.120
b_max:              5.120
c_min:              -5.120
c_max:              5.120
d_min:              -5.120
d_max:              5.120
f_min:              -5.120
f_max:              5.120


# file name of output
Fout_Len: 	    100
FoutPre: 	    chain
FoutSuf: 	    .dat
results_dir: 	    results082900 


# about the datafile 
# set delimiter as ""blank"" if data is seperated as "" ""
Data_file:           xy.dat
ndim_data:           2
Delimiter:           blank           




".
Definition ini_rastrigin_noL : bytes := lit ini_rastrigin_noL_text.

(** /repo/models/rastrigin/input.ini_noTune_Ladder_noTune_Proporal *)
Definition ini_rastrigin_no_text : string :=
"/* we use ""para_name""+"":"" to search input parameters. */
/* NOTE: the ""para_name"" str should no appear in comments */

# setting the chain grid
N_iter:                 2000000
# NOTE: N-beta == n-ranks since we set n-ranks based on N-beta, should at least be 2
N_beta:	                4
Beta_Values:            0.001, 0.002, 0.003, 1

# tune the temperature or not
Tune_Ladder:            0
N_stopTuneLadder:       500000
# ladder tuning parameters
# scale parameters of ladder tuning
scale_tune_ladder:      0.2
# in case zero swap ar occurs
zero_stretch:           0.1

#

# test case
N_parm:     	        5  
#
# set total N-iteration in a stack of batches
n_iter_a_stack:         5000
# number of iteration in a batch before judging should a swap be taken
n_iter_a_batch_base:    20
# random +/- range of n-iter-a-batch-base (must < n-iter-a-batch-base)
n_iter_a_batch_rand:    5
# Number of swaping propose will be tested
N_swap:                 1
# neighbor swap (0) or random swap (1)  
Swapmode:               0

# tuning the proposals 
# stop the tuning after N-stoptune
N_stoptune:             000000
# begin the tuning after N-stoptune
N_begintune:            500000
#
# the N-iteration in tuning sigma_prop
n_iter_in_tune:         3000
# the lower boundary ok accept rate  
ar_ok_lower:            0.10
# the upper boundary ok accept rate  
ar_ok_upper:            0.45
# the best ar
ar_best:                0.23
# the maximum diff for an acceptable ar
ar_accept_diff:         0.1
#
sigma_scale_half_ratio: 20
#

# set the range of sigma (check the set_sigma_range function in readin.c)
sigma_scale_min:        0.0000000005
sigma_scale_max:        0.2
# reset the sigma in the range if out of the min/max boundary
sigma_jumpin_ratio:     300

# save the chain starting from (burning)
i_save_begin:           0

# initial random seed(rolling in mpi), set it <= 0 to use system time 
init_rand_seed:         20 
# ratio of the init gaussian_proposal_sigma to the allowed prior range
init_gp_ratio:          0.001


# prior 
a_min:              -5.12
a_max:              5.12
b_min:              -5.120
b_max:              5.120
c_min:              -5.120
c_max:              5.120
d_min:              -5.120
d_max:              5.120
f_min:              -5.120
f_max:              5.120


# file name of output
Fout_Len: 	    100
FoutPre: 	    chain
FoutSuf: 	    .dat
results_dir: 	    results082900 


# about the datafile 
# set delimiter as ""blank"" if data is seperated as "" ""
Data_file:           xy.dat
ndim_data:           2
Delimiter:           blank           




".
Definition ini_rastrigin_no : bytes := lit ini_rastrigin_no_text.

(** /repo/models/fit_orbit/input.ini *)
Definition ini_fit_orbit_text : string :=
"/* we use ""para_name""+"":"" to search input parameters. */
/* NOTE: the ""para_name"" str should no appear in comments */

# setting the chain grid
N_iter:                 3000000
# NOTE: N-beta == n-ranks since we set n-ranks based on N-beta, should at least be 2
N_beta:	                8
Beta_Values:            0.01, 0.03, 0.1, 0.2, 1.0, 0.4, 0.1, 0.05
# test case, y=ax+b+noise(0,1)
N_parm:     	        15  
#
# set total N-iteration in a stack of batches
n_iter_a_stack:         5000
# number of iteration in a batch before judging should a swap be taken
n_iter_a_batch_base:    20
# random +/- range of n-iter-a-batch-base (must < n-iter-a-batch-base)
n_iter_a_batch_rand:    5
# Number of swaping propose will be tested
N_swap:                 1
# neighbor swap (0) or random swap (1)  
Swapmode:               0

# stop the tuning after N-stoptune
N_stoptune:             10000000
# the N-iteration in tuning sigma_prop
n_iter_in_tune:         1000
# the lower boundary ok accept rate  
ar_ok_lower:            0.16
# the upper boundary ok accept rate  
ar_ok_upper:            0.33
# the best ar
ar_best:                0.234
# the maximum diff for an acceptable ar
ar_accept_diff:         0.1
#
sigma_scale_half_ratio: 200
#
# set the range of sigma (check the set_sigma_range function in readin.c)
sigma_scale_min:        0.00000000001
sigma_scale_max:        0.2
# reset the sigma in the range if out of the min/max boundary
sigma_jumpin_ratio:     300

# save the chain starting from (burning)
i_save_begin:           500000

# initial random seed(rolling in mpi), set it <= 0 to use system time 
init_rand_seed:         20 
# ratio of the init gaussian_proposal_sigma to the allowed prior range
init_gp_ratio:          0.1


# file name of output
Fout_Len: 	    100
FoutPre: 	    chain
FoutSuf: 	    .dat
results_dir: 	    results082900 


# about the datafile 
# set delimiter as ""blank"" if data is seperated as "" ""
Data_file:           pdata.dat
ndim_data:           2
Delimiter:           blank           


########## Priors
# NOTE: make sure para*_max > para*_min !
#
# cos(inclination)
para0_max:    1.0
para0_min:    0.0
#
# eccentricity
para1_max:    0.5 
para1_min:    0.0
#
# an_Omega_max 
para2_max:    360.0
para2_min:    0.0
#
# p_omega_max 
para3_max:    360.0 
para3_min:    0.0
#
# M0_max 
para4_max:    360.0
para4_min:    0.0
#
# planetary mass (Earth)
para5_max:    1000
para5_min:    0.1
#
# var(unknown error) in mu_as
para6_max:   10.0
para6_min:   0.1
#
# Period (days)
para7_max:   3000.0 
para7_min:   0.5
#
# cos(inclination)
para8_max:    1.0
para8_min:    0.0
#
# eccentricity
para9_max:   0.5
para9_min:   0.0
#
# an_Omega_max 
para10_max:  360.0 
para10_min:  0.0
#
# p_omega_max 
para11_max:  360.0
para11_min:  0.0
#
# M0_max 
para12_max:  360.0
para12_min:  0.0
#
# planetary mass (Earth)
para13_max:  1000.0
para13_min:  0.1
#
# Period (days)
para14_max:  3000.0
para14_min:  0.5
#



".
Definition ini_fit_orbit : bytes := lit ini_fit_orbit_text.

(** /repo/models/hier_R/input.ini *)
Definition ini_hier_R_text : string :=
"/* we use ""para_name""+"":"" to search input parameters. */
/* NOTE: the ""para_name"" str should no appear in comments */

# setting the chain grid
N_iter:                 10000000
# NOTE: N-beta == n-ranks since we set n-ranks based on N-beta, should at least be 2
N_beta:	                4
Beta_Values:            0.001, 0.01, 0.1, 1
# test case, y=ax+b+noise(0,1)
N_parm:     	        6  
#
# set total N-iteration in a stack of batches
n_iter_a_stack:         5000
# number of iteration in a batch before judging should a swap be taken
n_iter_a_batch_base:    20
# random +/- range of n-iter-a-batch-base (must < n-iter-a-batch-base)
n_iter_a_batch_rand:    5
# Number of swaping propose will be tested
N_swap:                 1
# neighbor swap (0) or random swap (1)  
Swapmode:               0

# stop the tuning after N-stoptune
N_stoptune:             5000000
# the N-iteration in tuning sigma_prop
n_iter_in_tune:         1000
# the lower boundary ok accept rate  
ar_ok_lower:            0.10
# the upper boundary ok accept rate  
ar_ok_upper:            0.45
# the best ar
ar_best:                0.23
# the maximum diff for an acceptable ar
ar_accept_diff:         0.1
#
sigma_scale_half_ratio: 20
#
# set the range of sigma (check the set_sigma_range function in readin.c)
sigma_scale_min:        0.00005
sigma_scale_max:        0.2
# reset the sigma in the range if out of the min/max boundary
sigma_jumpin_ratio:     300

# save the chain starting from (burning)
i_save_begin:           0

# initial random seed(rolling in mpi), set it <= 0 to use system time 
init_rand_seed:         20 
# ratio of the init gaussian_proposal_sigma to the allowed prior range
init_gp_ratio:          0.1


# file name of output
Fout_Len: 	    100
FoutPre: 	    chain
FoutSuf: 	    .dat
results_dir: 	    results082900 


# about the datafile 
# set delimiter as ""blank"" if data is seperated as "" ""
Data_file:           pdata_2_sections.dat
ndim_data:           2
Delimiter:           blank           


########## Priors
gamma_mean:           3
gamma_sd:             3
gamma_max:            7
gamma_min:            -4

logC_max:             4
logC_min:             -20

log_lambda_Y_max:     4
log_lambda_Y_min:     -12
#     20

gamma_lambda_Y_max:     20
#     20
gamma_lambda_Y_min:     -8

log_lambda_Yobs_max:  6
log_lambda_Yobs_min:  -7

log_lambda_Xobs_max:  6
log_lambda_Xobs_min:  -7


".
Definition ini_hier_R : bytes := lit ini_hier_R_text.

(** /repo/models/multi_gaussian/xy.dat *)
Definition dat_multi_gaussian_text : string :=
"6.373699425585940048e+00 2.663735168100561168e+01
4.010181296895517278e+00 2.145257950915325296e+01
6.013543017756234121e+00 2.561406325076613300e+01
9.986648521948056967e+00 4.065439338902932320e+01
".
Definition dat_multi_gaussian : bytes := lit dat_multi_gaussian_text.

(** /repo/models/curved_likelihood/xy.dat *)
Definition dat_curved_text : string :=
"6.373699425585940048e+00 2.663735168100561168e+01
4.010181296895517278e+00 2.145257950915325296e+01
6.013543017756234121e+00 2.561406325076613300e+01
9.986648521948056967e+00 4.065439338902932320e+01
1.618847667603775520e+00 1.154659365063852938e+01
8.112207941573736036e+00 3.105992676482412307e+01
5.216583425978954303e+00 2.203674269039878197e+01
1.833200800351530990e-01 3.071101629519759513e+00
4.710333549219665628e+00 2.029906674788003684e+01
".
Definition dat_curved : bytes := lit dat_curved_text.

(** /repo/models/eggbox/xy.dat *)
Definition dat_eggbox_text : string :=
"6.373699425585940048e+00 2.663735168100561168e+01
4.010181296895517278e+00 2.145257950915325296e+01
6.013543017756234121e+00 2.561406325076613300e+01
9.986648521948056967e+00 4.065439338902932320e+01
".
Definition dat_eggbox : bytes := lit dat_eggbox_text.
