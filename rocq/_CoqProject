-Q theories Verif
theories/Num.v
theories/Flt.v
theories/Vec.v
theories/S_rot.v
theories/M_vector.v
theories/M_quaternion.v
theories/P_quat.v
theories/P_sat.v
theories/P_equat.v
theories/P_vec2.v
theories/Props_vec.v
theories/S_cal.v
theories/M_jday.v
theories/P_jday.v
theories/P_jdint.v
theories/P_jday2.v
theories/Props_jday.v
theories/M_frame.v
theories/S_frame.v
theories/P_frame.v
theories/Props_frame.v
theories/M_att.v
theories/P_triad.v
theories/P_flae.v
theories/Props_att.v
theories/S_wahba.v
theories/P_wahba.v
theories/P_wahba2.v
theories/P_opt.v
theories/Props_wahba.v
theories/M_struct.v
theories/P_struct.v
theories/P_wheel.v
theories/Props_struct.v
theories/M_env.v
theories/S_env.v
theories/P_env.v
theories/Props_env.v
theories/M_dyn.v
theories/M_sensor.v
theories/M_integ.v
theories/S_integ.v
theories/P_integ.v
theories/P_integ2.v
theories/S_dyn.v
theories/P_dyn.v
theories/P_dyn2.v
theories/Props_dyn.v
theories/Props_orbit.v
theories/Props_sensor.v
theories/Mat6.v
theories/M_obs.v
theories/S_obs.v
theories/P_obs.v
theories/P_obs2.v
theories/P_obs3.v
theories/Props_obs.v
theories/Props_sign.v
theories/S_steady.v
theories/P_steady.v
theories/P_farr.v
theories/Props_farr.v
theories/P_est1.v
theories/P_est2.v
theories/P_est3.v
theories/Props_est.v
theories/M_ctrl.v
theories/S_ctrl.v
theories/P_ctrl.v
theories/P_ctrl2.v
theories/P_ctrl3.v
theories/P_ctrl4.v
theories/P_ctrl5.v
theories/Props_ctrl.v
theories/P_detum.v
theories/P_detum2.v
theories/Props_detum.v
theories/Props_wired.v
theories/P_bang.v
theories/Props_bang.v
theories/Props_dumpw.v
theories/P_park.v
theories/Props_park.v
theories/P_stare.v
theories/Props_stare.v
theories/P_hstare.v
theories/Props_hstare.v
theories/Props_asleep.v
theories/Props_runaway.v
theories/Props_sched.v
theories/Props_parkd.v
theories/Props_hest.v
theories/Props_hestd.v
theories/Props_limits.v
theories/Props_dest.v
theories/Props_dhest.v
theories/Props_agile.v
theories/Props_windup.v
theories/Props_sated.v
theories/Props_sated2.v
theories/Props_strong.v
theories/Props_strong2.v
theories/Props_global.v
theories/P_hdet.v
theories/P_hdet2.v
theories/Props_hdet.v
theories/Props_memory.v
theories/Props_roll.v
theories/P_samp.v
theories/P_samp2.v
theories/Props_samp.v
theories/Props_dist.v
theories/P_zone.v
theories/Props_zone.v
theories/P_dump.v
theories/P_dump2.v
theories/Props_dump.v
theories/P_loop1.v
theories/P_loop2.v
theories/P_loop3.v
theories/P_loop4.v
theories/P_loop5.v
theories/Props_loop.v
theories/M_jdayf.v
theories/P_jdayf.v
theories/P_jdayf2.v
theories/Props_jdayf.v
theories/P_clockf.v
theories/Props_clockf.v
theories/P_gps1.v
theories/P_gps2.v
theories/P_gps3.v
theories/P_gps4.v
theories/P_gps5.v
theories/P_gps6.v
theories/Props_gps.v
theories/P_meas.v
theories/Props_meas.v
theories/P_tri1.v
theories/P_tri2.v
theories/P_tri3.v
theories/P_tri4.v
theories/P_tri5.v
theories/Props_tri.v
theories/P_who1.v
theories/P_who2.v
theories/P_who3.v
theories/P_who4.v
theories/S_whole.v
theories/P_who5.v
theories/P_who6.v
theories/P_who7.v
theories/P_who8.v
theories/Props_whole.v
theories/P_half1.v
theories/P_half2.v
theories/Props_half.v
theories/P_mul1.v
theories/P_mul2.v
theories/P_mul3.v
theories/P_mul4.v
theories/P_mul5.v
theories/Props_mul.v
theories/Props_ctrl2.v
theories/Props_ctrl3.v
theories/Props_ctrl4.v
theories/M_fsm.v
theories/S_fsm.v
theories/P_fsm.v
theories/Props_fsm.v
theories/M_mgr.v
theories/P_mgr.v
theories/Props_mgr.v
theories/M_sim.v
theories/S_sim.v
theories/P_sim.v
theories/P_simf.v
theories/Props_sim.v
theories/P_poly.v
theories/P_lla1.v
theories/P_lla2.v
theories/P_lla3.v
theories/P_lla4.v
theories/P_lla5.v
theories/Props_lla.v
theories/M_lqr.v
theories/S_lqr.v
theories/P_lqr.v
theories/P_lqr2.v
theories/P_slew.v
theories/P_lqr3.v
theories/P_ode.v
theories/P_conv.v
theories/Props_lqr.v
theories/P_dare.v
theories/Props_dare.v
theories/M_lqi.v
theories/S_lqi.v
theories/P_lqi.v
theories/P_lqi2.v
theories/P_lqi3.v
theories/Props_lqi.v
theories/M_margins.v
theories/P_axis.v
theories/Props_axis.v
theories/P_delay.v
theories/Props_delay.v
theories/S_tdelay.v
theories/P_tdelay.v
theories/P_tdelay2.v
theories/P_tdelay3.v
theories/P_tdelay4.v
theories/Props_tdelay.v
theories/P_spin.v
theories/Props_spin.v
theories/S_rk.v
theories/P_rk.v
theories/P_rk2.v
theories/P_rk3.v
theories/P_rk4.v
theories/Props_rk.v
theories/P_lla6.v
theories/P_tot1.v
theories/P_tot2.v
theories/P_tot3.v
theories/Props_tot.v
theories/S_orb.v
theories/P_orb1.v
theories/P_orb2.v
theories/P_orb3.v
theories/P_orb4.v
theories/P_orb5.v
theories/Props_orb.v
theories/P_picard.v
theories/P_exist1.v
theories/P_exist2.v
theories/P_exist3.v
theories/Props_exist.v
theories/P_posf.v
theories/Props_posf.v
theories/S_run.v
theories/P_run1.v
theories/P_run2.v
theories/P_run3.v
theories/P_run4.v
theories/P_run5.v
theories/Props_run.v
theories/Props_run2.v
theories/P_normf.v
theories/Props_normf.v
theories/P_qf.v
theories/Props_qf.v
theories/Props_conv.v
theories/M_fsw.v
theories/Props_fsw.v
