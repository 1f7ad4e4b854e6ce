-Q theories Verif
theories/ApplyModel.v
theories/ApplyProofs.v
theories/Assign.v
theories/AttenuationModel.v
theories/BeginModel.v
theories/BindingModel.v
theories/BindingProofs.v
theories/BurstModel.v
theories/BurstProofs.v
theories/CaptureModel.v
theories/ChainModel.v
theories/ChainProofs.v
theories/CoefCorrect.v
theories/CoefModel.v
theories/CoefProofs.v
theories/CoefSpec.v
theories/ConnModel.v
theories/ConnProofs.v
theories/Conservation.v
theories/ConstModel.v
theories/ConstProofs.v
theories/CoupleModel.v
theories/CrsProofs.v
theories/CustomModel.v
theories/DissConservation.v
theories/DissCorrect.v
theories/EnergyModel.v
theories/EventModel.v
theories/FileModel.v
theories/FluxDiag.v
theories/FluxModel.v
theories/FluxProofs.v
theories/FormationModel.v
theories/FormationProofs.v
theories/FractionModel.v
theories/GatherModel.v
theories/GenBox.v
theories/GenModel.v
theories/GenProofs.v
theories/GridFileModel.v
theories/GridModel.v
theories/GridProofs.v
theories/GroupingModel.v
theories/HandlersModel.v
theories/HeatModel.v
theories/HeatProofs.v
theories/ImplantModel.v
theories/ImplantProofs.v
theories/LargestModel.v
theories/LatticeModel.v
theories/LogModel.v
theories/LossModel.v
theories/MaskModel.v
theories/MaskProofs.v
theories/MathModel.v
theories/MathProofs.v
theories/MobilityModel.v
theories/MobilityProofs.v
theories/NetFileModel.v
theories/OptionsModel.v
theories/OutputModel.v
theories/Partial.v
theories/PerfModel.v
theories/PointModel.v
theories/ProfileModel.v
theories/ProfileProofs.v
theories/Properties_Alloy.v
theories/Properties_Apply.v
theories/Properties_Attenuation.v
theories/Properties_Begin.v
theories/Properties_Binding.v
theories/Properties_Boundary.v
theories/Properties_Burst.v
theories/Properties_Capture.v
theories/Properties_Clusters.v
theories/Properties_Couple.v
theories/Properties_Custom.v
theories/Properties_Energy.v
theories/Properties_Event.v
theories/Properties_File.v
theories/Properties_Formation.v
theories/Properties_Fraction.v
theories/Properties_Gather.v
theories/Properties_Generator.v
theories/Properties_Grid.v
theories/Properties_GridFile.v
theories/Properties_Grouping.v
theories/Properties_Handlers.v
theories/Properties_Heat.v
theories/Properties_Ids.v
theories/Properties_Largest.v
theories/Properties_Lattice.v
theories/Properties_Laws.v
theories/Properties_Log.v
theories/Properties_Loss.v
theories/Properties_Mask.v
theories/Properties_Mobility.v
theories/Properties_NetFile.v
theories/Properties_Network.v
theories/Properties_Options.v
theories/Properties_Output.v
theories/Properties_Perf.v
theories/Properties_Point.v
theories/Properties_Points.v
theories/Properties_Profile.v
theories/Properties_Pulse.v
theories/Properties_Radius.v
theories/Properties_RateTemp.v
theories/Properties_Rates.v
theories/Properties_Ratio.v
theories/Properties_Reactions.v
theories/Properties_Release.v
theories/Properties_Resolution.v
theories/Properties_Restart.v
theories/Properties_Retention.v
theories/Properties_Retention3.v
theories/Properties_Row.v
theories/Properties_Select.v
theories/Properties_Sink.v
theories/Properties_Small.v
theories/Properties_Solver1D.v
theories/Properties_Source.v
theories/Properties_Stencil.v
theories/Properties_Stream.v
theories/Properties_Sub.v
theories/Properties_Sums.v
theories/Properties_TempGrid.v
theories/Properties_Time.v
theories/Properties_Token.v
theories/Properties_Totals.v
theories/Properties_Xenon.v
theories/Properties_Xenon3.v
theories/PulseModel.v
theories/RateTempModel.v
theories/RatesModel.v
theories/ReactionExamples.v
theories/RegionModel.v
theories/RegionProofs.v
theories/RegionSpec.v
theories/ReleaseModel.v
theories/ResolutionModel.v
theories/RestartModel.v
theories/Retention3Model.v
theories/RetentionModel.v
theories/RetentionProofs.v
theories/SelectModel.v
theories/SinkModel.v
theories/SmallExamples.v
theories/SmallModel.v
theories/SmallProofs.v
theories/Solver1DModel.v
theories/Solver1DProofs.v
theories/SourceModel.v
theories/StencilModel.v
theories/StencilProofs.v
theories/StreamModel.v
theories/SubModel.v
theories/Sums.v
theories/TempGridModel.v
theories/TimeModel.v
theories/TimeProofs.v
theories/TokenModel.v
theories/TotalsModel.v
theories/TotalsProofs.v
theories/Xenon3Model.v
theories/XenonModel.v
